(** Properties C70-C76: what documents say, files, strictness, written documents, repeated saving. *)
Require Import Coq.Strings.String Coq.Lists.List Coq.Arith.Arith Coq.NArith.NArith Coq.ZArith.ZArith Coq.Bool.Bool Coq.Floats.SpecFloat Coq.micromega.Lia.
Require Import Verif.Model.Base Verif.Model.Text Verif.Model.Float Verif.Model.Num Verif.Model.RustNum Verif.Model.Point Verif.Model.Contour
  Verif.Model.Create Verif.Model.Conv Verif.Model.Strings Verif.Model.Names Verif.Model.Pedantry Verif.Model.Color Verif.Model.Xml
  Verif.Model.Parts Verif.Model.Read Verif.Model.Write
  Verif.Spec.TextSpec Verif.Spec.NumSpec Verif.Spec.ContourSpec Verif.Spec.OutlineSpec Verif.Spec.GlyphSpec Verif.Spec.DocumentSpec
  Verif.Facts.XmlFacts Verif.Facts.GlyphFacts Verif.Facts.DocumentFacts Verif.Facts.WrittenFacts
  Verif.Props.PropsOutline Verif.Props.PropsGlyph.
Import ListNotations.
Local Open Scope string_scope.
Local Open Scope list_scope.
Local Open Scope nat_scope.

(** An example document. *)
Definition el (n : string) (a : list (string * string)) (c : list element) : element :=
  Element (lit n) (map (fun kv => (lit (fst kv), lit (snd kv))) a) (map NElem c).
Definition ex_doc : element :=
  el "glyph" [("name", "A"); ("format", "2")]
    [el "advance" [("width", "600")] []; el "unicode" [("hex", "41")] [];
     el "anchor" [("x", "10"); ("y", "-25"); ("name", "_top")] [];
     el "guideline" [("x", "1"); ("y", "2"); ("angle", "45"); ("color", "1,0,0,1")] [];
     el "image" [("fileName", "a.png"); ("xScale", "2")] [];
     el "outline" []
       [el "contour" [] [el "point" [("x", "0"); ("y", "0"); ("type", "line"); ("smooth", "yes")] [];
                         el "point" [("x", "10"); ("y", "0")] []; el "point" [("x", "10"); ("y", "10")] [];
                         el "point" [("x", "0"); ("y", "20"); ("type", "curve"); ("name", "p")] []];
        el "contour" [] []; el "component" [("base", "B"); ("yOffset", "5")] []]]%string.

(** C70: exactly what a `point` element says is read; reading one never panics. *)
Theorem C70_point_exact : forall (L : numlib) (e : element),
  (forall g, read_point L e = Ok g <-> point_says L e g) /\ read_point L e <> Panic.
Proof. intros. split; [apply read_point_says|apply read_point_np]. Qed.
Print Assumptions C70_point_exact.

Example C70_case : exists g, point_says rust_num (el "point" [("x", "-7"); ("y", "0.5"); ("type", "qcurve"); ("smooth", "yes")]%string []) g /\
  gsmooth g = true /\ gptype g = QCurve.
Proof.
  destruct (read_point rust_num (el "point" [("x", "-7"); ("y", "0.5"); ("type", "qcurve"); ("smooth", "yes")]%string [])) as [g| |] eqn:E; [|vm_compute in E; discriminate|vm_compute in E; discriminate].
  exists g. split; [now apply C70_point_exact|]. vm_compute in E. injection E as <-. split; reflexivity.
Qed.

(** C71: exactly what `component` and `image` elements say is read. *)
Theorem C71_component_image_exact : forall (L : numlib) (e : element),
  (forall c, read_component L e = Ok c <-> component_says L e c) /\
  (forall i, read_image L e = Ok i <-> image_says L e i) /\
  read_component L e <> Panic /\ read_image L e <> Panic.
Proof.
  intros. split; [apply read_component_says|]. split; [apply read_image_says|]. split; [apply read_component_np|apply read_image_np].
Qed.
Print Assumptions C71_component_image_exact.

(** C71: without matrix attributes the matrix is the identity. *)
Theorem C71_identity_by_default : forall (L : numlib) (e : element),
  (forall k, In k ["xScale"; "xyScale"; "yxScale"; "yScale"; "xOffset"; "yOffset"]%string -> get e k = None) ->
  f32_of_iof (iof_default L) = S754_zero false ->
  let identity := [f32_of_Z 1; S754_zero false; S754_zero false; f32_of_Z 1; S754_zero false; S754_zero false] in
  (forall c, read_component L e = Ok c -> map f32_of_iof (members (c_matrix c)) = identity) /\
  (forall i, read_image L e = Ok i -> map f32_of_iof (members (i_matrix i)) = identity).
Proof.
  intros L e Hk Hd identity.
  assert (forall one zero m, matrix_says L one zero e m -> m = mkMatrix one zero zero one zero zero) as X.
  { intros one zero m (H1 & H2 & H3 & H4 & H5 & H6).
    assert (forall k d i, In k ["xScale"; "xyScale"; "yxScale"; "yScale"; "xOffset"; "yOffset"]%string -> number_or L d e k i -> i = d) as Y.
    { intros k d i Hin [[_ ->]|(s & Hs & _)]; [reflexivity|]. rewrite (Hk k Hin) in Hs. discriminate. }
    destruct m as [a b c d x y]. cbn in *. apply Y in H1, H2, H3, H4, H5, H6; cbn; auto 10. now subst. }
  split.
  - intros c H. apply read_component_says in H as (_ & H & _). apply X in H. rewrite H. unfold members. cbn [map m_xScale m_xyScale m_yxScale m_yScale m_xOffset m_yOffset].
    rewrite Hd. reflexivity.
  - intros i H. apply read_image_says in H as (_ & H & _). apply X in H. rewrite H. reflexivity.
Qed.
Print Assumptions C71_identity_by_default.

Example C71_case : f32_of_iof (iof_default rust_num) = S754_zero false /\
  (exists c, read_component rust_num (el "component" [("base", "B"); ("yOffset", "5")]%string []) = Ok c /\ f32_of_iof (m_yOffset (c_matrix c)) = f32_of_Z 5) /\
  (exists c, read_component rust_num (el "component" [("base", "B")]%string []) = Ok c) /\
  (exists i, read_image rust_num (el "image" [("fileName", "B")]%string []) = Ok i) /\
  forall k, In k ["xScale"; "xyScale"; "yxScale"; "yScale"; "xOffset"; "yOffset"]%string -> get (el "component" [("base", "B")]%string []) k = None.
Proof.
  split; [reflexivity|]. split; [eexists; split; vm_compute; reflexivity|]. split; [eexists; vm_compute; reflexivity|]. split; [eexists; vm_compute; reflexivity|].
  intros k Hk. cbn in Hk. repeat (destruct Hk as [<-|Hk]; [reflexivity|]). destruct Hk.
Qed.

(** C72: a document is read exactly to what it says. *)
Theorem C72_document_exact : forall (L : numlib) (PD PL : Type) (pd0 : PD) (P : plistlib PL) (ped : pedantry) (root : element) (g : glif PD PL),
  read_element L pd0 P ped root = Ok g <-> document_says L pd0 P ped root g.
Proof. intros. apply read_element_says. Qed.
Print Assumptions C72_document_exact.

(** C72: a document says at most one thing under a setting. *)
Theorem C72_one_meaning : forall (L : numlib) (PD PL : Type) (pd0 : PD) (P : plistlib PL) (ped : pedantry) (root : element) (g g' : glif PD PL),
  document_says L pd0 P ped root g -> document_says L pd0 P ped root g' -> g = g'.
Proof. intros L PD PL pd0 P ped root g g' H H'. apply read_element_says in H, H'. congruence. Qed.
Print Assumptions C72_one_meaning.

Example C72_case : exists g, document_says rust_num tt no_plist pedantry_default ex_doc g /\
  g_width g = Some 600%N /\ length (g_anchors g) = 1 /\ length (g_guidelines g) = 1 /\ length (g_images g) = 1 /\
  length (cs_vec (g_components g)) = 1 /\ option_map (map (@length _)) (g_outline g) = Some [2].
Proof.
  destruct (read_element rust_num tt no_plist pedantry_default ex_doc) as [g| |] eqn:E; [|vm_compute in E; discriminate|vm_compute in E; discriminate].
  exists g. split; [now apply C72_document_exact|]. vm_compute in E. injection E as <-. repeat split.
Qed.

(** C73: reading from a file gives what the document in it says, with the file names filled in. *)
Theorem C73_file_exact : forall (L : numlib) (PD PL T : Type) (pd0 : PD) (P : plistlib PL) (files : path -> option T)
  (parse : T -> option element) (ped : pedantry) (fn : path) (g : glif PD PL),
  read_from_filename L pd0 P T files parse ped fn = Ok g <->
  exists txt root g0, files fn = Some txt /\ parse txt = Some root /\ document_says L pd0 P ped root g0 /\ found_in fn g0 g.
Proof. intros. apply read_file_is. Qed.
Print Assumptions C73_file_exact.

(** C73: the errors of a missing and of an ill-formed file. *)
Theorem C73_file_errors : forall (L : numlib) (PD PL T : Type) (pd0 : PD) (P : plistlib PL) (files : path -> option T)
  (parse : T -> option element) (ped : pedantry) (fn : path),
  (files fn = None -> read_from_filename L pd0 P T files parse ped fn = Err EFileIo) /\
  (forall txt, files fn = Some txt -> parse txt = None -> read_from_filename L pd0 P T files parse ped fn = Err EXmlParse) /\
  (forall txt root, files fn = Some txt -> parse txt = Some root ->
     (forall e, read_from_filename L pd0 P T files parse ped fn = Err e <-> read_element L pd0 P ped root = Err e) /\
     (read_from_filename L pd0 P T files parse ped fn = Panic <-> read_element L pd0 P ped root = Panic)).
Proof.
  intros. unfold read_from_filename. split; [intros ->; reflexivity|]. split; [intros txt -> H; cbn; now rewrite H|].
  intros txt root -> H. cbn [ok_or bind]. rewrite H. cbn [ok_or bind].
  destruct (read_element L pd0 P ped root); cbn [bind]; split; intros; split; congruence.
Qed.
Print Assumptions C73_file_errors.

Example C73_case : let files := fun p : path => if list_eq_dec (list_eq_dec N.eq_dec) p [lit "glyphs"; lit "A_.glif"] then Some ex_doc else None in
  exists g, read_from_filename rust_num tt no_plist element files Some pedantry_default [lit "glyphs"; lit "A_.glif"] = Ok g /\
    map c_filename (cs_vec (g_components g)) = [Some [lit "glyphs"; lit "B_.glif"]].
Proof. eexists. split; [vm_compute; reflexivity|reflexivity]. Qed.

(** C74: the structure of a written document. *)
Theorem C74_written_structure : forall (L : numlib) (PD PL : Type) (P : plistlib PL) (dbg : bool) (g : glif PD PL) (root : element),
  glif_xml L P dbg g = Ok root -> glyph_written L P dbg g root.
Proof. intros. now apply glif_xml_written. Qed.
Print Assumptions C74_written_structure.

Example C74_case : exists root, glif_xml rust_num no_plist true ex_glyph = Ok root /\
  length (named "outline" root) = 1 /\ length (named "image" root) = 1 /\ length (echildren root) = 9.
Proof. eexists. split; [vm_compute; reflexivity|]. repeat split. Qed.

(** C75: a setting other than the default only rejects more, and only rounds anchors. *)
Theorem C75_settings_exact : forall (L : numlib) (PD PL : Type) (pd0 : PD) (P : plistlib PL) (ped : pedantry) (root : element) (g : glif PD PL),
  read_element L pd0 P ped root = Ok g <->
  acceptable L ped root /\ exists g0, read_element L pd0 P pedantry_default root = Ok g0 /\ glyph_under ped g0 g.
Proof.
  intros. rewrite read_element_says, read_under. split; intros (H & g0 & H1 & H2); (split; [assumption|]); exists g0; (split; [now apply read_element_says|assumption]).
Qed.
Print Assumptions C75_settings_exact.

(** C75: whatever some setting accepts, the default accepts, and with the same result apart
    from the anchors. *)
Theorem C75_default_accepts_most : forall (L : numlib) (PD PL : Type) (pd0 : PD) (P : plistlib PL) (ped : pedantry) (root : element) (g : glif PD PL),
  read_element L pd0 P ped root = Ok g ->
  exists g0, read_element L pd0 P pedantry_default root = Ok g0 /\ glyph_under ped g0 g.
Proof. intros L PD PL pd0 P ped root g H. now apply C75_settings_exact in H. Qed.
Print Assumptions C75_default_accepts_most.

Example C75_case : acceptable rust_num (mkPedantry LevelOpenType MendNever) ex_doc /\
  (exists g, read_element rust_num tt no_plist (mkPedantry LevelOpenType MendNever) ex_doc = Ok g) /\
  ~ acceptable rust_num (mkPedantry LevelOpenType MendNever) (el "glyph" [("name", "A"); ("format", "2")]%string [el "advance" [("width", "600.5")]%string []]) /\
  exists g, read_element rust_num tt no_plist pedantry_default (el "glyph" [("name", "A"); ("format", "2")]%string [el "advance" [("width", "600.5")]%string []]) = Ok g.
Proof.
  assert (exists g, read_element rust_num tt no_plist (mkPedantry LevelOpenType MendNever) ex_doc = Ok g) as (g & H) by (eexists; vm_compute; reflexivity).
  split; [now apply C75_settings_exact in H|]. split; [eauto|]. split; [|eexists; vm_compute; reflexivity].
  intros [_ X]. destruct (X (conj (or_introl eq_refl) eq_refl) _ _ eq_refl) as (s & w & E & E'). vm_compute in E. injection E as <-. vm_compute in E'. discriminate.
Qed.

(** C76 as stated is false: saving and loading moves the start of a closed contour. *)
Definition ex76 : contour unit :=
  [pt21 0 0 (placed (gpt 10 0 OffCurve)) (placed (gpt 0 10 OffCurve)) Curve;
   pt21 100 0 (placed (gpt 100 10 OffCurve)) (placed (gpt 90 0 OffCurve)) Curve;
   pt21 50 50 (placed (gpt 40 50 OffCurve)) (placed (gpt 60 50 OffCurve)) Curve].
Theorem C76_start_stable_refuted : exists c c1 c2 : contour unit,
  cubic_contour_form c /\ storable c /\ stored_times rust_num true 1 c c1 /\ stored_times rust_num true 2 c c2 /\
  hd_error c <> hd_error c1 /\ hd_error c1 <> hd_error c2 /\ hd_error c <> hd_error c2.
Proof.
  exists ex76, [nth 2 ex76 (hd (pt21 0 0 Colocated Colocated Curve) ex76); nth 0 ex76 (pt21 0 0 Colocated Colocated Curve); nth 1 ex76 (pt21 0 0 Colocated Colocated Curve)],
    [nth 1 ex76 (pt21 0 0 Colocated Colocated Curve); nth 2 ex76 (pt21 0 0 Colocated Colocated Curve); nth 0 ex76 (pt21 0 0 Colocated Colocated Curve)].
  split; [do 2 eexists; split; [reflexivity|]; split; [right; now right|]; all_cases|].
  split.
  { intros [|[|[|i]]] p q Hp Hq; [| | |destruct i; discriminate]; cbn in Hp, Hq; injection Hp as <-; injection Hq as <-;
      cbn; repeat split; intros; try reflexivity; try discriminate; exfalso; match goal with H : ?a <> ?a |- _ => now apply H end. }
  split; [econstructor; [eexists; split; reflexivity|constructor]|].
  split; [econstructor; [eexists; split; reflexivity|econstructor; [eexists; split; reflexivity|constructor]]|].
  repeat split; intros E; vm_compute in E; discriminate.
Qed.
Print Assumptions C76_start_stable_refuted.

(** C76: exactly, a contour of curves only starts one point earlier after each cycle; nothing
    else changes. *)
Theorem C76_cycles_of_curves_exact : forall (L : numlib) (PD : Type) (dbg : bool) (k : nat) (c : contour PD),
  (forall f, f32_of_iof (iof_of_f32 L f) = f) -> c <> [] -> Forall (fun p => pptype p = Curve) c -> storable c ->
  exists c', stored_times L dbg k c c' /\ starting_earlier k c c' /\ forall c'', stored_times L dbg k c c'' -> c'' = c'.
Proof.
  intros L PD dbg k c HL Hne Ha Hs. destruct (all_curves_cycle L dbg HL k c Hne Ha Hs) as (c' & H1 & H2). exists c'.
  split; [assumption|]. split; [assumption|]. intros c'' H. eapply stored_times_unique; eassumption.
Qed.
Print Assumptions C76_cycles_of_curves_exact.

(** C76: with a line in it, the start moves back to the nearest line point and stays there. *)
Theorem C76_cycles_with_line_exact : forall (L : numlib) (PD : Type) (dbg : bool) (k : nat) (p q : point PD) (l r : list (point PD)),
  (forall f, f32_of_iof (iof_of_f32 L f) = f) -> cubic_contour_form (p :: l ++ q :: r) -> storable (p :: l ++ q :: r) ->
  pptype p = Curve -> pptype q <> Curve -> Forall (fun x => pptype x = Curve) r ->
  exists c', stored_times L dbg k (p :: l ++ q :: r) c' /\
    (exists m s, p :: l ++ q :: r = m ++ s /\ c' = s ++ m /\ length s = Nat.min k (1 + length r)) /\
    forall c'', stored_times L dbg k (p :: l ++ q :: r) c'' -> c'' = c'.
Proof.
  intros L PD dbg k p q l r HL Hc Hs Hp Hq Hr. destruct (stops_at_line L dbg HL k p l q r Hc Hs Hp Hq Hr) as (c' & H1 & H2). exists c'.
  split; [assumption|]. split; [assumption|]. intros c'' H. eapply stored_times_unique; eassumption.
Qed.
Print Assumptions C76_cycles_with_line_exact.

(** C76: a contour that starts with a line or is open is stable. *)
Theorem C76_cycles_stable : forall (L : numlib) (PD : Type) (dbg : bool) (k : nat) (p : point PD) (t : list (point PD)),
  (forall f, f32_of_iof (iof_of_f32 L f) = f) -> cubic_contour_form (p :: t) -> storable (p :: t) -> pptype p <> Curve ->
  forall c', stored_times L dbg k (p :: t) c' <-> c' = p :: t.
Proof.
  intros L PD dbg k p t HL Hc Hs Hp c'. pose proof (stays L dbg HL (p :: t) p t k Hc Hs eq_refl Hp) as H.
  split; [intros H'; eapply stored_times_unique; eassumption|intros ->; assumption].
Qed.
Print Assumptions C76_cycles_stable.

Example C76_case : ex76 <> [] /\ Forall (fun p => pptype p = Curve) ex76 /\ storable ex76 /\
  cubic_contour_form ex21 /\ storable ex21 /\ exists p q l r, ex21 = p :: l ++ q :: r /\ pptype p = Curve /\ pptype q <> Curve /\ Forall (fun x => pptype x = Curve) r.
Proof.
  split; [discriminate|]. split; [all_cases|]. split.
  { intros [|[|[|i]]] p q Hp Hq; [| | |destruct i; discriminate]; cbn in Hp, Hq; injection Hp as <-; injection Hq as <-;
      cbn; repeat split; intros; try reflexivity; try discriminate; exfalso; match goal with H : ?a <> ?a |- _ => now apply H end. }
  split; [apply C21_case|]. split; [apply C21_case|].
  eexists _, _, [], []. split; [reflexivity|]. split; [reflexivity|]. split; [discriminate|constructor].
Qed.
