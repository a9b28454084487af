(** Saving glyphs through serde and loading them again. *)
Require Import Coq.Strings.String Coq.Lists.List Coq.NArith.NArith Coq.ZArith.ZArith Coq.Floats.SpecFloat Coq.micromega.Lia.
Require Import Verif.Model.Base Verif.Model.Text Verif.Model.Float Verif.Model.Num Verif.Model.RustNum Verif.Model.Point
  Verif.Model.Contour Verif.Model.Strings Verif.Model.Names Verif.Model.Color Verif.Model.Xml Verif.Model.Parts Verif.Model.Component
  Verif.Model.Mpoint Verif.Model.Mfek Verif.Model.Serde
  Verif.Spec.TextSpec Verif.Spec.SerdeSpec Verif.Facts.TextFacts Verif.Facts.NamesFacts Verif.Facts.StringsFacts
  Verif.Facts.FloatFacts Verif.Facts.SerdeFacts Verif.Facts.SerdeExactFacts Verif.Facts.SerdeReadFacts Verif.Facts.SerdeEnumFacts.
Import ListNotations.
Local Open Scope string_scope.

(** Types of other crates, for the cases below: point data of MFEK, numbers as JSON numbers, an
    empty property list. *)
Definition ex_lib : serdelib mfek_data unit :=
  mkSerde en_mfek_data de_mfek_data (mkMfekData false false false)
    (fun i => match i with IInt z => JInt z | IFloat x => if is_finite x then JFloat (f64_of_f32 x) else JNull end)
    (fun j => match j with JInt z => Some (IInt z) | JFloat d => Some (IFloat (f32_of_f64 d)) | _ => None end)
    (fun _ => Some (JObj [])) (fun j => match j with JObj _ => Some tt | _ => None end).
(** The same with the point data `()`. *)
Definition unit_lib : serdelib unit unit :=
  mkSerde en_unit de_unit tt (iof_en ex_lib) (iof_de ex_lib) (pl_en ex_lib) (pl_de ex_lib).

Lemma ex_lib_faithful : faithful ex_lib /\ writable ex_lib.
Proof.
  repeat split.
  - intros [a b c] j. cbn. intros [= <-]. reflexivity.
  - intros [z|x] O; [reflexivity|]. cbn. destruct O as [V F]. rewrite F. f_equal. f_equal. now apply f32_of_f64_of_f32.
  - intros [] j [= <-]. reflexivity.
  - intros [] H. discriminate H.
  - intros [] H. discriminate H.
Qed.
Lemma unit_lib_faithful : faithful unit_lib /\ writable unit_lib.
Proof.
  destruct ex_lib_faithful as [[_ K1 K2] [_ K3]]. repeat split.
  - intros [] j [= <-]. reflexivity.
  - exact K1.
  - exact K2.
  - intros [] H. discriminate H.
  - exact K3.
Qed.

(** * C92: strings that were checked *)

(** C92: a string that passed the check is loaded as it was saved. *)
Theorem C92_checked_kept : forall s t : str, glif_string s = Ok t ->
  exists j, en_glif_string t = Some j /\ de_glif_string j = Some t.
Proof. intros s t _. exists (JStr t). split; reflexivity. Qed.
Print Assumptions C92_checked_kept.

(** C92: loading gives every text, checked or not; that it has no control characters (or, for the
    other type, is not empty) does not hold of what is loaded. *)
Theorem C92_loaded_checked_refuted :
  (forall s : str, exists j, de_glif_string j = Some s) /\
  (exists j s, de_glif_string j = Some s /\ forall t, glif_string s <> Ok t) /\
  (exists j, de_glif_string j = Some [] /\ forall t, glif_string_len_one [] <> Ok t).
Proof.
  split; [|split].
  - intros s. exists (JStr s). reflexivity.
  - exists (JStr [10%N]), [10%N]. split; [reflexivity|]. intros t H. apply glif_string_exact in H as [_ H].
    apply (H 10%N); [now left|]. unfold control. lia.
  - exists (JStr []). split; [reflexivity|]. intros t H. discriminate H.
Qed.
Print Assumptions C92_loaded_checked_refuted.

(** C92: what is loaded satisfies the check exactly if the text of the document does. *)
Theorem C92_loaded_exactly : forall (j : json) (s : str),
  de_glif_string j = Some s <-> j = JStr s.
Proof.
  intros j s. split.
  - destruct j; try discriminate. intros [= ->]. reflexivity.
  - intros ->. reflexivity.
Qed.
Print Assumptions C92_loaded_exactly.

(** C92: the class of an anchor as files have it is such a string. *)
Theorem C92_anchor_class_refuted : forall (PD PL : Type) (S : serdelib PD PL), faithful S -> forall s : str,
  exists j a, de_glifanchor S j = Some a /\ ga_class a = Some s.
Proof.
  intros PD PL S K s. exists (JObj [(lit "x", iof_en S (IInt 0)); (lit "y", iof_en S (IInt 0)); (lit "class", JStr s)]), (mkGA (IInt 0) (IInt 0) (Some s)).
  split; [|reflexivity]. apply (rt_glifanchor S K (mkGA (IInt 0) (IInt 0) (Some s))); [split; exact I|reflexivity].
Qed.
Print Assumptions C92_anchor_class_refuted.

Example C92_case : exists j, glif_string (lit "top") = Ok (lit "top") /\ en_glif_string (lit "top") = Some j /\
  de_glif_string j = Some (lit "top") /\ exists a, de_glifanchor ex_lib (JObj [(lit "x", JInt 0); (lit "y", JInt 1); (lit "class", JStr [7%N])]) = Some a /\ ga_class a = Some [7%N].
Proof. exists (JStr (lit "top")). repeat split. eexists. split; reflexivity. Qed.

(** * C93: a glyph *)

(** C93: a glyph all of whose numbers are finite is loaded as it was saved, but for its file name. *)
Theorem C93_round_trip : forall (PD PL : Type) (S : serdelib PD PL) (g : glif PD PL) (j : json),
  faithful S -> glif_ok S g -> en_glif S g = Some j -> de_glif S j = Some (glif_saved g).
Proof. intros PD PL S g j K O E. now apply (rt_glif S K g j). Qed.
Print Assumptions C93_round_trip.

(** C93: so saving what was loaded loses nothing more. *)
Theorem C93_round_trip_again : forall (PD PL : Type) (S : serdelib PD PL) (g : glif PD PL) (j : json),
  faithful S -> glif_ok S g -> en_glif S g = Some j ->
  exists g', de_glif S j = Some g' /\ en_glif S g' = Some j /\ (g_filename g = None -> g' = g).
Proof.
  intros PD PL S g j K O E. exists (glif_saved g). split; [now apply C93_round_trip|]. split.
  - exact E.
  - intros H. unfold glif_saved. destruct g. cbn in H |- *. now subst.
Qed.
Print Assumptions C93_round_trip_again.

(** C93: saving fails exactly if the lib is XML that is no property list, or the name of an image is
    not Unicode. *)
Theorem C93_saving_fails_exactly : forall (PD PL : Type) (S : serdelib PD PL) (g : glif PD PL), writable S ->
  en_glif S g = None <-> (exists e, g_lib g = LXml e) \/ (exists im n, In im (g_images g) /\ i_filename im = NotUtf8 n).
Proof. intros PD PL S g W. now apply en_glif_none. Qed.
Print Assumptions C93_saving_fails_exactly.

(** C93: what can be saved but has a coordinate that is not finite cannot be loaded. *)
Theorem C93_not_finite : forall (PD PL : Type) (S : serdelib PD PL) (g : glif PD PL) (j : json) (x : f32),
  en_glif S g = Some j -> coordinate g x -> is_finite x = false -> de_glif S j = None.
Proof.
  intros PD PL S g j x E C F. destruct (de_glif S j) as [g'|] eqn:D; [|reflexivity].
  pose proof (glif_back S g j g' x E D C). congruence.
Qed.
Print Assumptions C93_not_finite.

(** C93: exactly what is loaded. If all numbers are finite it is the glyph without its file name and without
    point data that are written like no data; otherwise nothing is loaded. *)
Theorem C93_exact : forall (PD PL : Type) (S : serdelib PD PL) (g : glif PD PL) (j : json),
  faithful S -> (forall x, is_finite x = false -> iof_de S (iof_en S (IFloat x)) = None) -> typed_glif g -> en_glif S g = Some j ->
  ((forall x, coordinate g x \/ file_number g (IFloat x) -> is_finite x = true) -> de_glif S j = Some (glif_saved (glif_without_null S g))) /\
  ((exists x, (coordinate g x \/ file_number g (IFloat x)) /\ is_finite x = false) -> de_glif S j = None).
Proof.
  intros PD PL S g j K N T E. split.
  - intros F. apply (rt_glif S K); [|now rewrite glif_without_null_written]. apply exact_ok; [exact T| |]; intros x H; apply F; tauto.
  - intros (x & [H|H] & F); (destruct (de_glif S j) as [g'|] eqn:D; [|reflexivity]).
    + pose proof (glif_back S g j g' x E D H). congruence.
    + destruct (glif_numbers_back S g j g' _ E D H). auto.
Qed.
Print Assumptions C93_exact.

Definition bare_glyph {PD PL : Type} (o : option (outline PD)) (f : option path) (l : lib PL) : glif PD PL :=
  mkGlif o [] (mkComponents (lit "a") [] []) [] [] None [] (lit "a") None f l.

Definition ex_exact : glif unit unit :=
  mkGlif (Some [[mkPoint (fl "1") (fl "-2.5") (At (fl "3") (fl "4")) Colocated None Line false (Some tt)]]) []
    (mkComponents (lit "a") [] []) [mkGuideline (fl "7") (fl "8") (IFloat (fl "45.5")) None None None tt] [] (Some 500%N) [] (lit "a") None None LNone.
Example C93_exact_case : (forall x, is_finite x = false -> iof_de unit_lib (iof_en unit_lib (IFloat x)) = None) /\ typed_glif ex_exact /\
  (forall x, coordinate ex_exact x \/ file_number ex_exact (IFloat x) -> is_finite x = true) /\
  glif_without_null unit_lib ex_exact <> ex_exact.
Proof.
  assert (A : forall x, coordinate ex_exact x -> In x [fl "1"; fl "-2.5"; fl "3"; fl "4"; fl "7"; fl "8"]).
  { intros x H. destruct H as [o c p x Eo Ic Ip H|a x Ia H|l x Il H].
    - injection Eo as <-. destruct Ic as [<-|[]]. destruct Ip as [<-|[]]. cbn [px py pa pb] in H.
      destruct H as [->|[->|(y & [H|[H|[H|H]]])]]; try discriminate; try (injection H as H1 H2; subst); cbn [In]; tauto.
    - destruct Ia.
    - destruct Il as [<-|[]]. destruct H as [->| ->]; cbn [In gl_x gl_y]; tauto. }
  assert (B : forall i, file_number ex_exact i -> i = IFloat (fl "45.5")).
  { intros i H. destruct H as [l Il|l c i Il Ec Ic|c i Hc Hi|m i Hm Hi|m c i Hm Ec Ic]; try (destruct Il as [<-|[]]); try discriminate; try contradiction. reflexivity. }
  assert (C : forall x, coordinate ex_exact x \/ file_number ex_exact (IFloat x) -> valid32 x = true /\ is_finite x = true).
  { intros x [H|H].
    - apply A in H. repeat (destruct H as [<-|H]; [split; vm_compute; reflexivity|]). contradiction.
    - apply B in H. injection H as ->. split; vm_compute; reflexivity. }
  split; [intros x H; cbn; rewrite H; reflexivity|]. split; [|split].
  - split; [intros x H; apply C; auto|]. split; [intros x H; apply C; auto|]. split; [intros c p []|]. split; [constructor|].
    intros w [= <-]. reflexivity.
  - intros x H. now apply C.
  - discriminate.
Qed.

(** C93: that every glyph is loaded as it was saved does not hold: the file name is lost; a glyph
    with a point at infinity is saved but not loaded; XML in the lib cannot be saved; point data `()`
    is lost. *)
Theorem C93_refuted :
  (exists g j g', en_glif ex_lib g = Some j /\ de_glif ex_lib j = Some g' /\ g_filename g' <> g_filename g) /\
  (exists g j, en_glif ex_lib g = Some j /\ de_glif ex_lib j = None) /\
  (exists g, en_glif ex_lib g = None) /\
  (exists g j g', en_glif unit_lib g = Some j /\ de_glif unit_lib j = Some g' /\ g_outline g' <> g_outline g).
Proof.
  split; [|split; [|split]].
  - exists (bare_glyph None (Some (path_of (lit "a.glif"))) LNone). do 2 eexists.
    split; [vm_compute; reflexivity|]. split; [vm_compute; reflexivity|]. discriminate.
  - exists (bare_glyph (Some [[mkPoint (S754_infinity false) (fl "0") Colocated Colocated None Line false None]]) None LNone).
    eexists. split; [vm_compute; reflexivity|]. vm_compute. reflexivity.
  - exists (bare_glyph None None (LXml (Element (lit "lib") [] []))). reflexivity.
  - exists (bare_glyph (Some [[mkPoint (fl "1") (fl "0") Colocated Colocated None Line false (Some tt)]]) None LNone).
    do 2 eexists. split; [vm_compute; reflexivity|]. split; [vm_compute; reflexivity|]. vm_compute. discriminate.
Qed.
Print Assumptions C93_refuted.

(** C93: nor that what was loaded can be saved and loaded again: a number too large for a coordinate
    is loaded as infinity. *)
Theorem C93_loaded_again_refuted : exists j g j', de_glif ex_lib j = Some g /\ en_glif ex_lib g = Some j' /\ de_glif ex_lib j' = None.
Proof.
  exists (JObj [(lit "outline", JArr [JArr [JObj [(lit "x", JFloat (S754_finite false 4503599627370496 900)); (lit "y", JInt 0);
                                          (lit "ptype", JStr (lit "Line"))]]]);
          (lit "anchors", JArr []); (lit "components", JObj [(lit "root", JStr (lit "a")); (lit "vec", JArr []); (lit "uniques", JArr [])]);
          (lit "guidelines", JArr []); (lit "images", JArr []); (lit "unicode", JArr []); (lit "name", JStr (lit "a"));
          (lit "lib", JStr (lit "None"))]).
  do 2 eexists. split; [vm_compute; reflexivity|]. split; [vm_compute; reflexivity|]. vm_compute. reflexivity.
Qed.
Print Assumptions C93_loaded_again_refuted.

(** C93: the parts: an outline and a point as files have them, an anchor as files have it, a handle's side, a component
    with its matrix, the point data of MFEK. *)
Theorem C93_parts : forall (PD PL : Type) (S : serdelib PD PL), faithful S ->
  (forall p j, iof_ok (gx p) -> iof_ok (gy p) -> en_glifpoint S p = Some j -> de_glifpoint S j = Some p) /\
  (forall a j, iof_ok (ga_x a) -> iof_ok (ga_y a) -> en_glifanchor S a = Some j -> de_glifanchor S j = Some a) /\
  (forall w j, en_which w = Some j -> de_which j = Some w) /\
  (forall d j, en_mfek_data d = Some j -> j <> JNull /\ de_mfek_data j = Some d) /\
  (forall o j, Forall (Forall (fun p => iof_ok (gx p) /\ iof_ok (gy p))) (go_contours o) -> Forall glifcomponent_ok (go_components o) ->
     en_glifoutline S o = Some j -> de_glifoutline S j = Some o) /\
  (forall c j, glif_ok S (cp_glif c) -> affine_ok (cp_matrix c) -> en_component S c = Some j ->
     de_component S j = Some (mkComp (glif_saved (cp_glif c)) (cp_matrix c))).
Proof.
  intros PD PL S K. split; [|split; [|split; [|split; [|split]]]].
  - intros p j O1 O2. apply (rt_glifpoint S K). now split.
  - intros p j O1 O2. apply (rt_glifanchor S K). now split.
  - intros w j. now apply rt_which.
  - intros [a b c] j. cbn. intros [= <-]. split; [discriminate|reflexivity].
  - intros o j. now apply rt_glifoutline.
  - intros c j. now apply rt_component.
Qed.
Print Assumptions C93_parts.

Definition ex_data : mfek_data := mkMfekData true false true.
Definition ex_saved_contour : list (point mfek_data) :=
  [mkPoint (fl "0") (fl "-7.5") Colocated (At (fl "50") (fl "80")) (Some (lit "top")) Curve true (Some ex_data);
   mkPoint (fl "100") (fl "0.125") (At (fl "120") (fl "50")) Colocated None Line false None].
Definition ex_saved_glyph : glif mfek_data unit :=
  mkGlif (Some [ex_saved_contour]) [mkAnchor (fl "10") (fl "-2.5") (Some (lit "_top")) ex_data AMark]
    (mkComponents (lit "A") [mkComponent (lit "B") (Some (path_of (lit "glyphs/B_.glif"))) (mkMatrix (IInt 1) (IInt 0) (IInt 0) (IFloat (fl "0.5")) (IInt 3) (IInt 4)) None] [lit "A"; lit "B"])
    [mkGuideline (fl "1") (fl "2") (IInt 45) (Some (lit "g")) (Some (mkColor (IInt 1) (IInt 0) (IFloat (fl "0.5")) (IInt 1))) None ex_data]
    [mkImage (Utf8 (lit "a.png")) (mkMatrix (IInt 1) (IInt 0) (IInt 0) (IInt 1) (IInt 3) (IInt 4)) None None]
    (Some 600%N) [65; 97]%N (lit "A") (Some (lit "a note")) None (LPlist tt).

Ltac numbers := repeat (match goal with
  | |- _ /\ _ => split
  | |- Forall _ [] => apply Forall_nil
  | |- Forall _ (_ :: _) => apply Forall_cons
  | |- f32_ok _ => split; vm_compute; reflexivity
  | |- f64_ok _ => vm_compute; reflexivity
  | |- True => exact I
  | |- handle_ok Colocated => exact I
  | |- handle_ok (At _ _) => split
  | |- iof_ok (IInt _) => exact I
  | |- iof_ok (IFloat _) => split; vm_compute; reflexivity
  | |- if_some _ None => intros ? [=]
  | |- if_some _ (Some _) => intros ? [= <-]
  | |- _ => progress unfold point_ok, anchor_ok, guideline_ok, glifcomponent_ok, glifcomponents_ok, glifimage_ok,
              matrix_ok, color_ok, outline_ok, data_ok, rect_ok, affine_ok, dash_ok, cull_ok, vws_ok, vws_handle_ok
  | |- _ => progress cbn [px py pa pb pdata an_x an_y gl_x gl_y gl_angle gl_color c_filename c_matrix cs_vec cs_uniques
              i_matrix i_color m_xScale m_xyScale m_yxScale m_yScale m_xOffset m_yOffset cr cg cb ca g_outline g_anchors
              g_components g_guidelines g_images g_width fst snd c0 c1 c2 c3 c4 c5
              mg_layers mg_anchors mg_components mg_flattened mg_component_rects mg_guidelines mg_width
              l_color l_outline l_images r_minx r_miny r_maxx r_maxy]
  | |- a_path _ => eexists; reflexivity
  | |- a_u64 _ => vm_compute; reflexivity
  | |- a_u8 _ => vm_compute; reflexivity
  end).

Lemma ex_saved_ok : glif_ok ex_lib ex_saved_glyph.
Proof.
  unfold glif_ok, ex_saved_glyph, ex_saved_contour. cbn [g_outline g_anchors g_components g_guidelines g_images g_width]. numbers.
  - discriminate.
  - repeat constructor; cbn [In]; intros H; repeat (destruct H as [H|H]; [discriminate H|]); destruct H.
Qed.
Example C93_case : exists j, faithful ex_lib /\ glif_ok ex_lib ex_saved_glyph /\ en_glif ex_lib ex_saved_glyph = Some j /\ de_glif ex_lib j = Some ex_saved_glyph.
Proof.
  destruct (en_glif ex_lib ex_saved_glyph) as [j|] eqn:E.
  - exists j. split; [apply ex_lib_faithful|]. split; [apply ex_saved_ok|]. split; [reflexivity|].
    exact (C93_round_trip _ _ ex_lib ex_saved_glyph j (proj1 ex_lib_faithful) ex_saved_ok E).
  - apply (C93_saving_fails_exactly _ _ ex_lib ex_saved_glyph (proj2 ex_lib_faithful)) in E as [(e & H)|(im & n & [<-|[]] & H)]; discriminate H.
Qed.

(** * C94: an MFEK glyph, with patterns within patterns and histories within histories *)

(** C94: an MFEK glyph all of whose numbers are finite is loaded as it was saved, but for the file
    names, its own and those of the glyphs in its history. *)
Theorem C94_round_trip : forall (PD PL : Type) (S : serdelib PD PL) (m : mglif PD (history PD)) (j : json),
  faithful S -> mfekglif_ok S m -> en_mfekglif S m = Some j -> de_mfekglif S j = Some (mfekglif_saved m).
Proof. intros PD PL S m j K O E. now apply (rt_mfekglif S K m j). Qed.
Print Assumptions C94_round_trip.

(** C94: the same for one contour, which loses nothing, whatever operations it carries. *)
Theorem C94_contour_round_trip : forall (PD PL : Type) (S : serdelib PD PL) (c : mcontour PD) (j : json),
  faithful S -> mcontour_ok S c -> en_mcontour S c = Some j -> de_mcontour S j = Some c.
Proof. intros PD PL S c j K O E. now apply (rt_mcontour S K c j). Qed.
Print Assumptions C94_contour_round_trip.

(** C94: and for one entry of a history. *)
Theorem C94_history_round_trip : forall (PD PL : Type) (S : serdelib PD PL) (h : history PD) (j : json),
  faithful S -> history_ok S h -> en_history S h = Some j -> de_history S j = Some (history_saved h).
Proof. intros PD PL S h j K O E. now apply (rt_history S K h j). Qed.
Print Assumptions C94_history_round_trip.

(** C94: saving fails exactly if some image, of the glyph or of a glyph in its history, has a name that
    is not Unicode. *)
Theorem C94_saving_fails_exactly : forall (PD PL : Type) (S : serdelib PD PL) (m : mglif PD (history PD)), writable S ->
  en_mfekglif S m = None <-> unwritable_image m.
Proof. intros PD PL S m W. now apply en_mfekglif_none. Qed.
Print Assumptions C94_saving_fails_exactly.

(** C94: a contour can always be saved. *)
Theorem C94_contour_saved : forall (PD PL : Type) (S : serdelib PD PL) (c : mcontour PD), writable S ->
  exists j, en_mcontour S c = Some j.
Proof.
  intros PD PL S c W. destruct (en_mcontour S c) as [j|] eqn:E; [eauto|]. now apply en_mcontour_total in E.
Qed.
Print Assumptions C94_contour_saved.

Definition bare_mfek (n : string) (f : option path) (h : list (history mfek_data)) (l : list (layer mfek_data)) : mglif mfek_data (history mfek_data) :=
  mkMG _ l h [] (mkComponents (lit n) [] []) None None [] None [] (lit n) None f.

(** C94: that every MFEK glyph is loaded as it was saved does not hold; the file name is lost
    although one that is there would be read. *)
Theorem C94_refuted :
  (exists m j m', en_mfekglif ex_lib m = Some j /\ de_mfekglif ex_lib j = Some m' /\ mg_filename m' <> mg_filename m) /\
  (exists j m, de_mfekglif ex_lib j = Some m /\ mg_filename m = Some (path_of (lit "glyphs/a.glif"))).
Proof.
  split.
  - exists (bare_mfek "a" (Some (path_of (lit "a.glif"))) [] []). do 2 eexists.
    split; [vm_compute; reflexivity|]. split; [vm_compute; reflexivity|]. discriminate.
  - exists (JObj [(lit "layers", JArr []); (lit "history", JArr []); (lit "anchors", JArr []);
      (lit "components", JObj [(lit "root", JStr (lit "a")); (lit "vec", JArr []); (lit "uniques", JArr [])]);
      (lit "guidelines", JArr []); (lit "unicode", JArr []); (lit "name", JStr (lit "a")); (lit "filename", JStr (lit "glyphs/a.glif"))]).
    eexists. split; [vm_compute; reflexivity|]. vm_compute. reflexivity.
Qed.
Print Assumptions C94_refuted.

Definition ex_pattern (c : list (mcontour mfek_data)) : pap (mcontour mfek_data) :=
  mkPap _ c PRepeated (SubSimple 2) true StretchSpacing (f64_of_Z 3) true (f64_of_Z (-1)) (f64_of_Z 2) (f64_of_Z 1, f64_of_Z 4)
    true (CullErase (f64_of_Z 1) (f64_of_Z 2)) false true false true false.
Definition ex_inner_contour : mcontour mfek_data := MC (Hyper [mkH (fl "1") (fl "2") Colocated (At (fl "3") (fl "4.5")) HLine true (Some ex_data)] true)
  (Some (OpDash (mkDash (fl "10") (Some (mkCull (fl "1") (fl "2"))) [fl "4"; fl "2"] true 3 0))).
Definition ex_mfek_contour : mcontour mfek_data :=
  MC (Cubic ex_saved_contour) (Some (OpPap (ex_pattern [ex_inner_contour;
    MC (Quad [mkQ (fl "1") (fl "2") (At (fl "0") (fl "0")) None QCurve false None]) (Some (OpPap (ex_pattern [ex_inner_contour])))]))).
Definition ex_layer : layer mfek_data :=
  mkLayer (lit "Layer 0") true (Some (mkColor (IInt 1) (IInt 0) (IInt 0) (IInt 1))) [ex_mfek_contour] (Some LUnion)
    [(mkImage (Utf8 (lit "a.png")) (mkMatrix (IInt 1) (IInt 0) (IInt 0) (IInt 1) (IInt 3) (IInt 4)) None None, mkAffine (f64_of_Z 1) (f64_of_Z 0) (f64_of_Z 0) (f64_of_Z 1) (f64_of_Z 3) (f64_of_Z 4))].
Definition ex_mfek : mglif mfek_data (history mfek_data) :=
  bare_mfek "A" None
    [HEntry (lit "moved") (Some 0%N) None (Some 3%N) [] (Some [(0, 1); (0, 2)]%N)
       (bare_mfek "A" None [HEntry (lit "made") None None None [] None (bare_mfek "A" None [] [])] [ex_layer])]
    [ex_layer].

Lemma ex_pattern_ok c : pap_ok (ex_pattern c).
Proof. unfold pap_ok, ex_pattern. cbn [pp_subdivide pp_spacing pp_normal_offset pp_tangent_offset pp_pattern_scale pp_prevent_overdraw]. numbers. Qed.
Lemma ex_inner_ok : mcontour_ok ex_lib ex_inner_contour.
Proof.
  apply contour_dash; [|unfold dash_ok; cbn [d_stroke_width d_cull d_desc d_paint_join d_paint_cap dc_width dc_area_cutoff]; numbers].
  cbn [inner_ok]. apply Forall_cons; [|apply Forall_nil]. unfold hpoint_ok. cbn [h_x h_y h_a h_b h_data]. numbers. discriminate.
Qed.
Lemma ex_layer_ok : layer_ok ex_lib ex_layer.
Proof.
  unfold layer_ok, ex_layer. numbers. apply contour_pap; [|apply ex_pattern_ok|].
  - cbn [inner_ok]. unfold ex_saved_contour. numbers. discriminate.
  - intros c [<-|[<-|[]]]; [apply ex_inner_ok|]. apply contour_pap; [|apply ex_pattern_ok|].
    + cbn [inner_ok]. apply Forall_cons; [|apply Forall_nil]. unfold qpoint_ok. cbn [q_x q_y q_a q_data]. numbers.
    + intros c [<-|[]]. apply ex_inner_ok.
Qed.
Lemma ex_mfek_ok : mfekglif_ok ex_lib ex_mfek.
Proof.
  assert (B : forall n f h l, Forall (layer_ok ex_lib) l -> mglif_ok ex_lib (bare_mfek n f h l)).
  { intros n f h l L. unfold mglif_ok, bare_mfek. numbers; [assumption|constructor]. }
  pose proof ex_layer_ok as L. split; [apply B; apply Forall_cons; [exact L|apply Forall_nil]|]. apply Forall_cons; [|apply Forall_nil].
  apply entry_ok; numbers.
  - repeat constructor; cbn [In]; intros H; repeat (destruct H as [H|H]; [discriminate H|]); destruct H.
  - apply B. apply Forall_cons; [exact L|apply Forall_nil].
  - intros h [<-|[]]. apply entry_ok; numbers; [apply B; constructor|]. intros h [].
Qed.
Example C94_case : exists j, mfekglif_ok ex_lib ex_mfek /\ en_mfekglif ex_lib ex_mfek = Some j /\ de_mfekglif ex_lib j = Some ex_mfek.
Proof.
  destruct (en_mfekglif ex_lib ex_mfek) as [j|] eqn:E.
  - exists j. split; [apply ex_mfek_ok|]. split; [reflexivity|].
    exact (C94_round_trip _ _ ex_lib ex_mfek j (proj1 ex_lib_faithful) ex_mfek_ok E).
  - exfalso. vm_compute in E. discriminate E.
Qed.
Example C94_unwritable_case : exists m, unwritable_image m /\ en_mfekglif ex_lib m = None.
Proof.
  assert (U : unwritable_image (bare_mfek "A" None [HEntry (lit "moved") None None None [] None (bare_mfek "A" None []
     [mkLayer (lit "Layer 0") true None [] None [(mkImage (NotUtf8 [255%N]) (mkMatrix (IInt 1) (IInt 0) (IInt 0) (IInt 1) (IInt 3) (IInt 4)) None None, mkAffine (f64_of_Z 1) (f64_of_Z 0) (f64_of_Z 0) (f64_of_Z 1) (f64_of_Z 3) (f64_of_Z 4))]])] [])).
  { eapply image_in_history; [left; reflexivity|]. eapply image_here; [left; reflexivity|left; reflexivity|reflexivity]. }
  eexists. split; [exact U|]. now apply (C94_saving_fails_exactly _ _ ex_lib).
Qed.

(** * C95: which fields are read *)

(** C95: the fields of the points, with their defaults: a hyper point has none, its handles must be
    there. *)
Theorem C95_points : forall (PD PL : Type) (S : serdelib PD PL),
  reads_struct (de_point S) ["x"; "y"; "a"; "b"; "name"; "ptype"; "smooth"; "data"] ["x"; "y"; "ptype"]
    [("a", JStr (lit "Colocated")); ("b", JStr (lit "Colocated")); ("name", JNull); ("smooth", JBool false); ("data", JNull)] 6 /\
  reads_struct (de_qpoint S) ["x"; "y"; "a"; "name"; "ptype"; "smooth"; "data"] ["x"; "y"; "ptype"]
    [("a", JStr (lit "Colocated")); ("name", JNull); ("smooth", JBool false); ("data", JNull)] 5 /\
  reads_struct (de_hpoint S) ["x"; "y"; "a"; "b"; "kind"; "smooth"; "data"]
    ["x"; "y"; "a"; "b"; "kind"; "smooth"] [("data", JNull)] 7 /\
  reads_struct (de_glifpoint S) ["x"; "y"; "smooth"; "name"; "ptype"] ["x"; "y"; "smooth"; "ptype"] [("name", JNull)] 5.
Proof.
  intros PD PL S. split; [apply reads_point|]. split; [apply reads_qpoint|]. split; [apply reads_hpoint|apply reads_glifpoint].
Qed.
Print Assumptions C95_points.

(** C95: the fields of a glyph and of its parts. *)
Theorem C95_glyph : forall (PD PL : Type) (S : serdelib PD PL),
  reads_struct (de_glif S)
    ["outline"; "anchors"; "components"; "guidelines"; "images"; "width"; "unicode"; "name"; "note"; "lib"]
    ["anchors"; "components"; "guidelines"; "images"; "unicode"; "name"; "lib"] [("outline", JNull); ("width", JNull); ("note", JNull)] 10 /\
  (forall d, pd_de S d = Some (pd_default S) ->
     reads_struct (de_anchor S) ["x"; "y"; "class"; "data"; "atype"] ["x"; "y"]
       [("class", JNull); ("data", d); ("atype", JStr (lit "Base"))] 2) /\
  reads_struct (de_guideline S) ["at"; "angle"; "name"; "color"; "identifier"; "data"]
    ["at"; "angle"; "data"] [("name", JNull); ("color", JNull); ("identifier", JNull)] 6 /\
  reads_struct de_guideline_point ["x"; "y"] ["x"; "y"] [] 2 /\
  reads_struct (de_color S) ["r"; "g"; "b"; "a"] ["r"; "g"; "b"; "a"] [] 4 /\
  reads_struct (de_glifanchor S) ["x"; "y"; "class"] ["x"; "y"] [("class", JNull)] 3 /\
  reads_struct (de_glifcomponents S) ["root"; "vec"; "uniques"] ["root"; "vec"; "uniques"] [] 3 /\
  reads_struct (de_glifcomponent S)
    ["base"; "filename"; "xScale"; "xyScale"; "yxScale"; "yScale"; "xOffset"; "yOffset"; "identifier"]
    ["base"; "xScale"; "xyScale"; "yxScale"; "yScale"; "xOffset"; "yOffset"] [("filename", JNull); ("identifier", JNull)] 9 /\
  reads_struct (de_glifimage S)
    ["filename"; "xScale"; "xyScale"; "yxScale"; "yScale"; "xOffset"; "yOffset"; "identifier"; "color"]
    ["filename"; "xScale"; "xyScale"; "yxScale"; "yScale"; "xOffset"; "yOffset"] [("identifier", JNull); ("color", JNull)] 9 /\
  reads_struct (de_component S) ["glif"; "matrix"] ["glif"; "matrix"] [] 2 /\
  reads_struct (de_glifoutline S) ["contours"; "components"] ["contours"; "components"] [] 2.
Proof.
  intros PD PL S. split; [apply reads_glif|]. split; [apply reads_anchor|]. split; [apply reads_guideline|].
  split; [apply reads_guideline_point|]. split; [apply reads_color|]. split; [apply reads_glifanchor|].
  split; [apply reads_glifcomponents|]. split; [apply reads_glifcomponent|]. split; [apply reads_glifimage|].
  split; [apply reads_component|apply reads_glifoutline].
Qed.
Print Assumptions C95_glyph.

(** C95: the fields of an MFEK glyph, its layers, contours and history. *)
Theorem C95_mfek_glyph : forall (PD PL : Type) (S : serdelib PD PL),
  reads_struct (de_mfekglif S)
    ["layers"; "history"; "anchors"; "components"; "flattened"; "component_rects"; "guidelines"; "width"; "unicode"; "name"; "note"; "filename"]
    ["layers"; "history"; "anchors"; "components"; "guidelines"; "unicode"; "name"]
    [("flattened", JNull); ("component_rects", JNull); ("width", JNull); ("note", JNull); ("filename", JNull)] 12 /\
  reads_struct (de_layer S) ["name"; "visible"; "color"; "outline"; "operation"; "images"]
    ["name"; "visible"; "outline"; "images"] [("color", JNull); ("operation", JNull)] 6 /\
  reads_struct (de_mcontour S) ["inner"; "operation"] ["inner"] [("operation", JNull)] 2 /\
  reads_struct (de_hyper_inner S) ["points"; "open"] ["points"; "open"] [] 2 /\
  reads_struct (de_history S)
    ["description"; "layer_idx"; "contour_idx"; "point_idx"; "guidelines"; "selected"; "glyph"]
    ["description"; "guidelines"; "glyph"] [("layer_idx", JNull); ("contour_idx", JNull); ("point_idx", JNull); ("selected", JNull)] 7 /\
  reads_struct de_rect ["minx"; "miny"; "maxx"; "maxy"; "name"] ["minx"; "miny"; "maxx"; "maxy"; "name"] [] 5.
Proof.
  intros PD PL S. split; [apply (reads_mglif S)|]. split; [apply reads_layer|]. split; [apply reads_mcontour|].
  split; [apply reads_hyper_inner|]. split; [apply reads_history|apply reads_rect].
Qed.
Print Assumptions C95_mfek_glyph.

(** C95: the fields of the operations: none but the culling of a dash may be left out. *)
Theorem C95_operations : forall (C : Type) (de : json -> option C),
  reads_struct de_vws ["handles"; "join_type"; "cap_start_type"; "cap_end_type"; "remove_internal"; "remove_external"]
    ["handles"; "join_type"; "cap_start_type"; "cap_end_type"; "remove_internal"; "remove_external"] [] 6 /\
  reads_struct de_vws_handle ["left_offset"; "right_offset"; "tangent_offset"; "interpolation"]
    ["left_offset"; "right_offset"; "tangent_offset"; "interpolation"] [] 4 /\
  reads_struct de_dash ["stroke_width"; "cull"; "dash_desc"; "include_last_path"; "paint_join"; "paint_cap"]
    ["stroke_width"; "dash_desc"; "include_last_path"; "paint_join"; "paint_cap"] [("cull", JNull)] 6 /\
  reads_struct de_cull ["width"; "area_cutoff"] ["width"; "area_cutoff"] [] 2 /\
  reads_struct (de_pap de)
    ["pattern"; "copies"; "subdivide"; "is_vertical"; "stretch"; "spacing"; "simplify"; "normal_offset"; "tangent_offset";
     "pattern_scale"; "center_pattern"; "prevent_overdraw"; "two_pass_culling"; "reverse_path"; "reverse_culling"; "warp_pattern"; "split_path"]
    ["pattern"; "copies"; "subdivide"; "is_vertical"; "stretch"; "spacing"; "simplify"; "normal_offset"; "tangent_offset";
     "pattern_scale"; "center_pattern"; "prevent_overdraw"; "two_pass_culling"; "reverse_path"; "reverse_culling"; "warp_pattern"; "split_path"] [] 17.
Proof.
  intros C de. split; [apply reads_vws|]. split; [apply reads_vws_handle|]. split; [apply reads_dash|].
  split; [apply reads_cull|apply reads_pap].
Qed.
Print Assumptions C95_operations.

(** C95: the names of the plain enums, and no others. *)
Theorem C95_enums :
  reads_names de_ptype [("Undefined", Undefined); ("Move", Move); ("Curve", Curve); ("QCurve", QCurve);
    ("QClose", QClose); ("Line", Line); ("OffCurve", OffCurve)] /\
  reads_names de_which [("Neither", Neither); ("A", WA); ("B", WB)] /\
  reads_names de_anchor_type [("Mark", AMark); ("Base", ABase)] /\
  reads_names de_join [("Bevel", JBevel); ("Miter", JMiter); ("Circle", JCircle); ("Round", JRound)] /\
  reads_names de_cap [("Custom", CapCustom); ("Square", CapSquare); ("Circle", CapCircle); ("Round", CapRound)] /\
  reads_names de_interpolation [("Null", INull); ("Linear", ILinear)] /\
  reads_names de_copies [("Single", PSingle); ("Repeated", PRepeated)] /\
  reads_names de_stretch [("Off", StretchOff); ("On", StretchOn); ("Spacing", StretchSpacing)] /\
  reads_names de_layer_operation [("Difference", LDifference); ("Union", LUnion); ("XOR", LXOR); ("Intersect", LIntersect)] /\
  reads_names de_hyper_kind [("Curve", HCurve); ("Line", HLine)].
Proof.
  repeat match goal with |- _ /\ _ => split end; apply reads_units;
    repeat constructor; cbn [In map fst]; intros H; repeat (destruct H as [H|H]; [discriminate H|]); destruct H.
Qed.
Print Assumptions C95_enums.

(** C95: a handle is the name for one at the point, or a pair of numbers. *)
Theorem C95_handle : forall (j : json) (h : handle), de_handle j = Some h <->
  (h = Colocated /\ (j = JStr (lit "Colocated") \/ j = JObj [(lit "Colocated", JNull)])) \/
  (exists x y jx jy, h = At x y /\ j = JObj [(lit "At", JArr [jx; jy])] /\ de_f32 jx = Some x /\ de_f32 jy = Some y).
Proof. exact de_handle_says. Qed.
Print Assumptions C95_handle.

(** C95: the enums that carry values. *)
Theorem C95_variants : forall (PD PL C : Type) (S : serdelib PD PL) (de : json -> option C),
  reads_variants (de_lib S) [("None", LNone)] [("Plist", fun v => option_map LPlist (pl_de S v))] /\
  reads_variants de_subdivide [("Off", SubOff)]
    [("Simple", fun v => option_map SubSimple (de_nat u64_bound v)); ("Angle", fun v => option_map SubAngle (de_f64 v))] /\
  reads_variants de_culling [("Off", CullOff); ("RemoveOverlapping", CullRemove)]
    [("EraseOverlapping", fun v => option_map (fun p => CullErase (fst p) (snd p)) (de_pair v))] /\
  reads_variants (de_operations de) []
    [("VariableWidthStroke", named_data OpVws de_vws); ("PatternAlongPath", named_data OpPap (de_pap de));
     ("DashAlongPath", named_data OpDash de_dash)] /\
  reads_variants (de_inner S) []
    [("Cubic", fun v => option_map Cubic (de_vec (de_point S) v)); ("Quad", fun v => option_map Quad (de_vec (de_qpoint S) v));
     ("Hyper", fun v => option_map (fun h => Hyper (fst h) (snd h)) (de_hyper_inner S v))] /\
  reads_variants de_mfek_data [] [("Guideline", de_mfek_info)] /\
  reads_struct de_mfek_info ["fixed"; "format"; "right"] ["fixed"; "format"; "right"] [] 3.
Proof.
  intros PD PL C S de. split; [apply variants_lib|]. split; [apply variants_subdivide|]. split; [apply variants_culling|].
  split; [apply variants_operations|]. split; [apply variants_inner|]. split; [apply variants_mfek_data|apply reads_mfek_info].
Qed.
Print Assumptions C95_variants.

(** C95: numbers: an integer is a float too; unsigned numbers have a bound; a character is a text of
    one; a set has no element twice. *)
Theorem C95_values :
  (forall j x, de_f32 j = Some x <-> (exists d, j = JFloat d /\ x = f32_of_f64 d) \/ (exists z, j = JInt z /\ x = f32_of_Z z)) /\
  (forall j x, de_f64 j = Some x <-> j = JFloat x \/ (exists z, j = JInt z /\ x = f64_of_Z z)) /\
  (forall j n, de_nat u64_bound j = Some n <-> j = JInt (Z.of_N n) /\ (n < 2 ^ 64)%N) /\
  (forall j n, de_nat 256 j = Some n <-> j = JInt (Z.of_N n) /\ (n < 256)%N) /\
  (forall j b, de_bool j = Some b <-> j = JBool b) /\ (forall j s, de_str j = Some s <-> j = JStr s) /\
  (forall j c, de_char j = Some c <-> j = JStr [c]) /\ (forall j u, de_unit j = Some u <-> j = JNull) /\
  (forall j l, de_set str_eqb de_str j = Some l -> NoDup l /\ exists l', de_vec de_str j = Some l' /\ forall x, In x l <-> In x l').
Proof.
  assert (U : forall b j n, (de_nat b j = Some n <-> j = JInt (Z.of_N n) /\ (Z.of_N n < b)%Z)).
  { intros b j n. unfold de_nat. split.
    - destruct j; try discriminate. destruct (Z.leb_spec 0 z); [|discriminate]. destruct (Z.ltb_spec z b); [|discriminate].
      cbn [andb]. intros [= <-]. rewrite Z2N.id by lia. now split.
    - intros (-> & H). destruct (Z.leb_spec 0 (Z.of_N n)); [|lia]. destruct (Z.ltb_spec (Z.of_N n) b); [|lia]. cbn [andb].
      now rewrite N2Z.id. }
  split; [|split; [|split; [|split; [|split; [|split; [|split; [|split]]]]]]].
  - intros j x. split.
    + destruct j; try discriminate; intros [= <-]; eauto.
    + intros [(d & -> & ->)|(z & -> & ->)]; reflexivity.
  - intros j x. split.
    + destruct j; try discriminate; intros [= <-]; eauto.
    + intros [->|(z & -> & ->)]; reflexivity.
  - intros j n. rewrite U. change u64_bound with (Z.of_N (2 ^ 64)). now rewrite N2Z.inj_lt.
  - intros j n. rewrite U. change 256%Z with (Z.of_N 256). now rewrite N2Z.inj_lt.
  - intros j b. split; [|now intros ->]. destruct j; try discriminate. now intros [= ->].
  - intros j b. split; [|now intros ->]. destruct j; try discriminate. now intros [= ->].
  - intros j b. split; [|now intros ->]. destruct j as [| | | |[|c [|]]| |]; try discriminate. now intros [= ->].
  - intros j []. split; [|now intros ->]. now destruct j.
  - intros j l. unfold de_set. destruct (de_vec de_str j) as [l'|]; [|discriminate]. cbn [obind]. intros [= <-].
    assert (G : forall m acc, NoDup acc -> NoDup (fold_left (set_add str_eqb) m acc) /\
      forall x, In x (fold_left (set_add str_eqb) m acc) <-> In x acc \/ In x m).
    { induction m as [|a m IH]; intros acc D; cbn [fold_left].
      - split; [assumption|]. intros x. cbn. tauto.
      - unfold set_add at 2 4. destruct (existsb (str_eqb a) acc) eqn:E.
        + destruct (IH acc D) as [H1 H2]. split; [assumption|]. intros x. rewrite H2. cbn [In].
          apply existsb_exists in E as (y & Iy & Ey). apply str_eqb_eq in Ey. subst y. split; [tauto|]. intros [I|[<-|I]]; auto.
        + destruct (IH (acc ++ [a])%list) as [H1 H2].
          { apply NoDup_rev in D. rewrite <- (rev_involutive acc), <- (rev_involutive [a]), <- rev_app_distr. apply NoDup_rev.
            cbn [rev app]. constructor; [|assumption]. rewrite <- in_rev. intros I.
            assert (existsb (str_eqb a) acc = true); [|congruence]. apply existsb_exists. exists a. split; [assumption|now apply str_eqb_eq]. }
          split; [assumption|]. intros x. rewrite H2, in_app_iff. cbn [In]. tauto. }
    destruct (G l' [] (NoDup_nil _)) as [H1 H2]. split; [assumption|]. exists l'. split; [reflexivity|].
    intros x. rewrite H2. cbn. tauto.
Qed.
Print Assumptions C95_values.
(** C95: the values as written: floats that JSON cannot hold as null. *)
Theorem C95_written_values :
  (forall x, (is_finite x = true -> en_f32 x = Some (JFloat (f64_of_f32 x)) /\ en_f64 x = Some (JFloat x)) /\
             (is_finite x = false -> en_f32 x = Some JNull /\ en_f64 x = Some JNull)) /\
  (forall b j, en_bool b = Some j -> de_bool j = Some b) /\ (forall s j, en_str s = Some j -> de_str j = Some s) /\
  (forall c j, en_char c = Some j -> de_char j = Some c) /\ (forall n j, (n < 2 ^ 64)%N -> en_nat n = Some j -> de_nat u64_bound j = Some n).
Proof.
  split; [intros x; unfold en_f32, en_f64; split; intros ->; split; reflexivity|].
  split; [intros b j [= <-]; reflexivity|]. split; [intros s j [= <-]; reflexivity|]. split; [intros c j [= <-]; reflexivity|].
  intros n j Hn [= <-]. apply C95_values. auto.
Qed.
Print Assumptions C95_written_values.

Example C95_case : exists p, de_point ex_lib (JObj [(lit "ptype", JStr (lit "Line")); (lit "unknown", JNull); (lit "y", JInt 2); (lit "x", JInt 1)]) = Some p /\
  p = mkPoint (fl "1") (fl "2") Colocated Colocated None Line false None.
Proof. eexists. split; vm_compute; reflexivity. Qed.
Example C95_case_missing : de_hpoint ex_lib (JObj [(lit "x", JInt 1); (lit "y", JInt 2); (lit "kind", JStr (lit "Line")); (lit "smooth", JBool false)]) = None.
Proof. reflexivity. Qed.
