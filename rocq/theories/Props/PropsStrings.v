(** Properties C01-C04, C08, C09: file names, restricted strings, colors. *)
Require Import Coq.Lists.List Coq.NArith.NArith Coq.ZArith.ZArith Coq.Strings.String Coq.Floats.SpecFloat.
Require Import Verif.Model.Base Verif.Model.Text Verif.Model.Float Verif.Model.Num Verif.Model.RustNum
  Verif.Model.Strings Verif.Model.Names Verif.Model.Color
  Verif.Spec.TextSpec Verif.Spec.NumSpec Verif.Facts.NamesFacts Verif.Facts.StringsFacts Verif.Facts.ColorFacts.
Import ListNotations.
Local Open Scope N_scope.

(** C01: different glyph names never share a file name. *)
Theorem C01_filename_injective : forall (ext : bool) (a b : str),
  name_to_filename a ext = name_to_filename b ext -> a = b.
Proof. exact filename_injective. Qed.
Print Assumptions C01_filename_injective.

(** C01: the glyph name can be recovered from the file name. *)
Theorem C01_filename_recovers_name : forall n : str,
  name_of_stem (name_to_filename n false) = n /\
  name_of_stem (stem_of_filename (name_to_filename n true)) = n.
Proof. exact filename_recovers_name. Qed.
Print Assumptions C01_filename_recovers_name.

Example C01_case :
  name_to_filename (lit "Aacute_Z") true = lit "A_acute_Z.glif" /\
  name_of_stem (stem_of_filename (lit "A_acute_Z.glif")) = lit "Aacute_Z".
Proof. split; reflexivity. Qed.

(** C02, for names without the letter Z: names equal up to case get file names that stay
    different on a case-insensitive file system. *)
Theorem C02_case_distinct_partial : forall (ext : bool) (a b : str),
  a <> b -> same_ignoring_case a b -> ~ In 90 a -> ~ In 90 b ->
  ~ same_ignoring_case (name_to_filename a ext) (name_to_filename b ext).
Proof. exact filename_case_distinct. Qed.
Print Assumptions C02_case_distinct_partial.

(** C02, exactly when two names equal up to case collide: when they only differ in the case
    of Z. *)
Theorem C02_case_collision_exact : forall (ext : bool) (a b : str),
  same_ignoring_case a b ->
  (same_ignoring_case (name_to_filename a ext) (name_to_filename b ext) <-> map lower_Z a = map lower_Z b).
Proof. exact filename_case_collision. Qed.
Print Assumptions C02_case_collision_exact.

(** C02 as stated is false: "Z" and "z". *)
Theorem C02_case_distinct_refuted : exists a b : str,
  a <> b /\ same_ignoring_case a b /\
  same_ignoring_case (name_to_filename a true) (name_to_filename b true).
Proof. exists (lit "Zcaron"), (lit "zcaron"). split; [discriminate|]. split; reflexivity. Qed.
Print Assumptions C02_case_distinct_refuted.

Example C02_case :
  lit "Aring" <> lit "aring" /\ same_ignoring_case (lit "Aring") (lit "aring") /\
  ~ In 90 (lit "Aring") /\ ~ In 90 (lit "aring").
Proof. repeat split; try discriminate; cbn; intuition discriminate. Qed.

(** C03: accepted exactly when free of control characters, and stored unchanged. *)
Theorem C03_glif_string_exact : forall s t : str,
  glif_string s = Ok t <-> t = s /\ forall c, In c s -> ~ control c.
Proof. exact glif_string_exact. Qed.
Print Assumptions C03_glif_string_exact.

(** C03: otherwise the position and value of the first control character are reported. *)
Theorem C03_glif_string_first_control : forall (pre : str) (c : N) (post : str),
  (forall d, In d pre -> ~ control d) -> control c ->
  glif_string (pre ++ c :: post) = Err (EControlChar (List.length pre) c).
Proof. exact glif_string_err. Qed.
Print Assumptions C03_glif_string_first_control.

(** C03: `GlifStringLenOne` additionally rejects exactly the empty string. *)
Theorem C03_len_one_exact : forall s t : str,
  glif_string_len_one s = Ok t <-> t = s /\ s <> [] /\ forall c, In c s -> ~ control c.
Proof. exact glif_string_len_one_exact. Qed.
Print Assumptions C03_len_one_exact.

Example C03_case :
  glif_string (lit "a.alt") = Ok (lit "a.alt") /\ glif_string [97; 233; 10; 127] = Err (EControlChar 2 10) /\
  glif_string_len_one [] = Err EStrLenZero.
Proof. repeat split. Qed.

(** C04: when every control character precedes every non-ASCII character (in particular for
    every ASCII string) the control characters are removed and nothing else. *)
Theorem C04_to_glif_string_partial : forall s : str,
  controls_before_non_ascii s -> to_glif_string s = Some (Ok (without_controls s)).
Proof. exact to_glif_string_good. Qed.
Print Assumptions C04_to_glif_string_partial.

(** C04: in the remaining case, a control character somewhere after a non-ASCII character,
    the call panics. *)
Theorem C04_to_glif_string_panics : forall (pre : str) (c : N) (post : str),
  control c -> (exists d, In d pre /\ ~ ascii d) -> to_glif_string (pre ++ c :: post) = Some Panic.
Proof. exact to_glif_string_panic. Qed.
Print Assumptions C04_to_glif_string_panics.

(** C04 as stated is false. *)
Theorem C04_to_glif_string_refuted : exists s : str, to_glif_string s = Some Panic.
Proof. exists [233; 10]. reflexivity. Qed.
Print Assumptions C04_to_glif_string_refuted.

Example C04_case :
  to_glif_string [97; 9; 98; 127; 99; 233] = Some (Ok [97; 98; 99; 233]) /\
  (forall s, (forall c, In c s -> ascii c) -> controls_before_non_ascii s).
Proof.
  split; [reflexivity|]. intros s H pre c post -> _ d Hd. apply H. apply in_or_app. now left.
Qed.

(** C08: a printed color parses back to the same color. *)
Theorem C08_color_round_trip : forall (L : numlib) (c : color),
  (forall i, In i [cr c; cg c; cb c; ca c] ->
     iof_read L (iof_show L i) = Some i /\ ~ In comma (iof_show L i)) ->
  color_parse L (color_show L c) = Ok c.
Proof. exact color_round_trip. Qed.
Print Assumptions C08_color_round_trip.

(** C08, up to the value of the numbers (an integral float may be read back as an integer). *)
Theorem C08_color_round_trip_value : forall (L : numlib) (c : color),
  (forall i, In i [cr c; cg c; cb c; ca c] ->
     option_map f32_of_iof (iof_read L (iof_show L i)) = Some (f32_of_iof i) /\ ~ In comma (iof_show L i)) ->
  exists c', color_parse L (color_show L c) = Ok c' /\ color_to_f32s c' = color_to_f32s c.
Proof. exact color_round_trip_value. Qed.
Print Assumptions C08_color_round_trip_value.

(** C08 with Rust's number formats: all colors of i32 values and of floats other than -0.0. *)
Theorem C08_color_round_trip_rust : forall c : color,
  iof_ok (cr c) -> iof_ok (cg c) -> iof_ok (cb c) -> iof_ok (ca c) ->
  exists c', color_parse rust_num (color_show rust_num c) = Ok c' /\ color_to_f32s c' = color_to_f32s c.
Proof. exact rust_color_round_trip. Qed.
Print Assumptions C08_color_round_trip_rust.

Example C08_case :
  let c := mkColor (IInt 1) (IFloat (fl "0.25")) (IFloat (fl "0.1")) (IInt 0) in
  color_show rust_num c = lit "1,0.25,0.1,0" /\
  (forall i, In i [cr c; cg c; cb c; ca c] ->
     iof_read rust_num (iof_show rust_num i) = Some i /\ ~ In comma (iof_show rust_num i)).
Proof.
  split; [vm_compute; reflexivity|]. intros i Hi. split; [|apply rust_iof_show_no_comma].
  cbn in Hi. destruct Hi as [<-|[<-|[<-|[<-|[]]]]]; vm_compute; reflexivity.
Qed.

(** C09: what is accepted.  The text must begin with four comma separated numbers; anything
    may follow after a further comma, and the pieces are read as they stand. *)
Theorem C09_color_accepts_exactly : forall (L : numlib) (s : str) (r g b a : iof),
  color_parse L s = Ok (mkColor r g b a) <->
  exists tr tg tb ta,
    (forall p, In p [tr; tg; tb; ta] -> ~ In comma p) /\
    (s = tr ++ comma :: tg ++ comma :: tb ++ comma :: ta \/
     exists t, s = tr ++ comma :: tg ++ comma :: tb ++ comma :: ta ++ comma :: t) /\
    iof_read L tr = Some r /\ iof_read L tg = Some g /\ iof_read L tb = Some b /\ iof_read L ta = Some a.
Proof. exact color_parse_exact. Qed.
Print Assumptions C09_color_accepts_exactly.

Theorem C09_color_never_panics : forall (L : numlib) (s : str), color_parse L s <> Panic.
Proof. exact color_parse_no_panic. Qed.
Print Assumptions C09_color_never_panics.

(** C09 as stated is false: five components are accepted, and white space is not. *)
Theorem C09_four_components_refuted :
  (exists c, color_parse rust_num (lit "1,0,0,1,junk") = Ok c) /\
  color_parse rust_num (lit "1, 0, 0, 1") = Err EColorNotRGBA /\
  exists c, color_parse rust_num (lit "1,0,0,1") = Ok c.
Proof. repeat split; try (eexists; vm_compute; reflexivity). Qed.
Print Assumptions C09_four_components_refuted.
