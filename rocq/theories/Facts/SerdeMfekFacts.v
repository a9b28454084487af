(** What of an MFEK glyph cannot be read back. *)
Require Import Coq.Strings.String Coq.Lists.List Coq.NArith.NArith Coq.ZArith.ZArith Coq.Bool.Bool Coq.micromega.Lia Coq.Floats.SpecFloat.
Require Import Verif.Model.Base Verif.Model.Text Verif.Model.Float Verif.Model.Num Verif.Model.Point
  Verif.Model.Contour Verif.Model.Names Verif.Model.Color Verif.Model.Xml Verif.Model.Parts Verif.Model.Component
  Verif.Model.Mpoint Verif.Model.Mfek Verif.Model.Serde Verif.Spec.GlyphSpec Verif.Spec.OpenSpec Verif.Spec.EqualSpec Verif.Spec.EqualMfekSpec
  Verif.Spec.SerdeSpec Verif.Spec.SerdeMfekSpec Verif.Facts.SerdeFacts Verif.Facts.SerdeExactFacts.
Import ListNotations.
Local Open Scope string_scope.
Local Open Scope list_scope.

(** If a written value was read, the floats it has are finite. *)
Definition back {A B} (en : A -> option json) (de : json -> option B) (fl : A -> list spec_float) : Prop :=
  forall a j b, en a = Some j -> de j = Some b -> forall x, In x (fl a) -> is_finite x = true.

Lemma back_f32 : back en_f32 de_f32 (fun x => [x]).
Proof. intros a j b E D x [<-|[]]. now apply (f32_back a j b). Qed.
Lemma back_f64 : back en_f64 de_f64 (fun x => [x]).
Proof. intros a j b E D x [<-|[]]. revert E. unfold en_f64. destruct (is_finite a); [reflexivity|]. intros [= <-]. discriminate. Qed.
Lemma f64_back x j y : en_f64 x = Some j -> de_f64 j = Some y -> is_finite x = true.
Proof. intros E D. apply (back_f64 x j y E D). now left. Qed.
Lemma back_vec {A B} (en : A -> option json) (de : json -> option B) fl : back en de fl -> back (en_vec en) (de_vec de) (flat_map fl).
Proof.
  intros H l j l' E D x I. apply in_flat_map in I as (a & I & J). destruct (vec_back _ _ _ _ _ a E D I) as (k & b & E' & D'). exact (H a k b E' D' x J).
Qed.
Lemma back_handle : back en_handle de_handle handle_floats.
Proof.
  intros h j h' E D x I. destruct h as [u v|]; [|destruct I]. destruct (handle_back _ _ _ E D u v eq_refl).
  destruct I as [<-|[<-|[]]]; assumption.
Qed.
Ltac open_tuple E := unfold jtuple, en_vec in E; rewrite ?elements_cons in E; cbn [elements] in E; open_struct E.

Lemma back_vws : back en_vws de_vws vws_floats.
Proof.
  intros v j w E D x I. unfold en_vws in E. open_struct E. unfold de_vws in D. find_fields_in D. some_field D.
  apply in_flat_map in I as (h & I & J). destruct (vec_back _ _ _ _ _ h F R I) as (k & h' & E' & D').
  unfold en_vws_handle in E'. open_struct E'. unfold de_vws_handle in D'. find_fields_in D'. repeat some_field D'.
  destruct J as [<-|[<-|[<-|[]]]]; eauto using f64_back.
Qed.
Lemma back_dash : back en_dash de_dash dash_floats.
Proof.
  intros d j w E D x I. unfold en_dash in E. open_struct E. unfold de_dash in D. find_fields_in D. repeat some_field D.
  destruct I as [<-|I]; [eauto using f32_back|]. apply in_app_iff in I as [I|I].
  - destruct (d_cull d) as [c|]; [|destruct I].
    destruct (opt_back _ _ _ _ _ F0 R0) as (k & c' & V & V').
    { intros j'. apply jstruct_nonnull. }
    unfold en_cull in V. open_struct V. unfold de_cull in V'. find_fields_in V'. repeat some_field V'.
    destruct I as [<-|[<-|[]]]; eauto using f32_back.
  - destruct (vec_back _ _ _ _ _ x F1 R1 I) as (k & y & V & V'). eauto using f32_back.
Qed.
Lemma back_subdivide : back en_subdivide de_subdivide subdivide_floats.
Proof.
  intros p j q E D x I. destruct p as [| |a]; [destruct I|destruct I|]. destruct I as [<-|[]]. cbn [en_subdivide] in E.
  unfold jnewtype in E. destruct (en_f64 a) as [k|] eqn:F; [|discriminate]. injection E as <-.
  unfold de_subdivide in D. cbn [variant obind] in D.
  change (str_eqb (lit "Angle") (lit "Off")) with false in D. change (str_eqb (lit "Angle") (lit "Simple")) with false in D.
  change (str_eqb (lit "Angle") (lit "Angle")) with true in D. cbn iota in D. cbn [obind] in D.
  destruct (de_f64 k) as [y|] eqn:G; [|discriminate]. eauto using f64_back.
Qed.
Lemma pair_back a b j q : jtuple [en_f64 a; en_f64 b] = Some j -> de_pair j = Some q -> is_finite a = true /\ is_finite b = true.
Proof.
  intros E D. open_tuple E. unfold de_pair in D. lazy [obind] in D. repeat some_field D. split; eauto using f64_back.
Qed.
Lemma back_culling : back en_culling de_culling culling_floats.
Proof.
  intros p j q E D x I. destruct p as [| |a b]; [destruct I|destruct I|]. cbn [en_culling] in E.
  unfold jnewtype in E. destruct (jtuple _) as [k|] eqn:F; [|discriminate]. injection E as <-.
  unfold de_culling in D. cbn [variant obind] in D.
  change (str_eqb (lit "EraseOverlapping") (lit "Off")) with false in D.
  change (str_eqb (lit "EraseOverlapping") (lit "RemoveOverlapping")) with false in D.
  change (str_eqb (lit "EraseOverlapping") (lit "EraseOverlapping")) with true in D.
  cbn iota in D. cbn [obind] in D. destruct (de_pair k) as [[y z]|] eqn:G; [|discriminate].
  destruct (pair_back _ _ _ _ F G). destruct I as [<-|[<-|[]]]; assumption.
Qed.
Lemma back_pap {C} (en : C -> option json) (de : json -> option C) (p : pap C) j q : en_pap en p = Some j -> de_pap de j = Some q ->
  (forall x, In x (pap_floats p) -> is_finite x = true) /\
  (forall c, In c (pp_pattern p) -> exists k d, en c = Some k /\ de k = Some d).
Proof.
  intros E D. unfold en_pap in E.
  destruct (jtuple _) as [pair|] eqn:P in E; [|].
  2:{ exfalso. revert E. unfold jstruct. cbn [fields].
      repeat match goal with |- context [obind ?v _] =>
        lazymatch v with obind _ _ => fail | Some _ => cbn [obind] | None => cbn [obind]
        | _ => destruct v; cbn [obind]; [|discriminate] end end. discriminate. }
  open_struct E. unfold de_pap in D. find_fields_in D. repeat some_field D. split.
  - intros x I. unfold pap_floats in I. apply in_app_iff in I as [I|I]; [|apply in_app_iff in I as [I|I]].
    + now apply (back_subdivide _ _ _ F1 R1).
    + destruct (pair_back _ _ _ _ P R8). destruct I as [<-|[<-|[<-|[<-|[<-|[]]]]]]; eauto using f64_back.
    + now apply (back_culling _ _ _ F9 R10).
  - intros c I. now apply (vec_back _ _ _ _ _ c F R).
Qed.
Lemma back_affine : back en_affine de_affine affine_floats.
Proof.
  intros a j b E D x I. unfold en_affine in E. open_tuple E. unfold de_affine in D. lazy [obind] in D. repeat some_field D.
  destruct I as [<-|[<-|[<-|[<-|[<-|[<-|[]]]]]]]; eauto using f64_back.
Qed.
Lemma back_rect : back en_rect de_rect rect_floats.
Proof.
  intros r j q E D x I. unfold en_rect in E. open_struct E. unfold de_rect in D. find_fields_in D. repeat some_field D.
  destruct I as [<-|[<-|[<-|[<-|[]]]]]; eauto using f32_back.
Qed.

Section Back.
Context {PD PL : Type} (S : serdelib PD PL).
Context (N : forall x, is_finite x = false -> iof_de S (iof_en S (IFloat x)) = None).

Lemma number_back x : iof_de S (iof_en S (IFloat x)) <> None -> is_finite x = true.
Proof. intros H. destruct (is_finite x) eqn:F; [reflexivity|]. now apply N in F. Qed.
Lemma back_point : back (en_point S) (de_point S) coordinates.
Proof.
  intros p j q E D x I. destruct (point_back _ _ _ _ E D) as (A & B & C). unfold coordinates in I.
  apply in_app_iff in I as [[<-|[<-|[]]]|I]; [assumption|assumption|]. apply in_app_iff in I as [I|I].
  - destruct (pa p) as [u v|]; [|destruct I]. destruct (C u v (or_introl eq_refl)). destruct I as [<-|[<-|[]]]; assumption.
  - destruct (pb p) as [u v|]; [|destruct I]. destruct (C u v (or_intror eq_refl)). destruct I as [<-|[<-|[]]]; assumption.
Qed.
Lemma back_qpoint : back (en_qpoint S) (de_qpoint S) qpoint_floats.
Proof.
  intros p j q E D x I. unfold en_qpoint in E. open_struct E. unfold de_qpoint in D. find_fields_in D. repeat some_field D.
  apply in_app_iff in I as [[<-|[<-|[]]]|I]; [eauto using f32_back|eauto using f32_back|]. eapply back_handle; eassumption.
Qed.
Lemma back_hpoint : back (en_hpoint S) (de_hpoint S) hpoint_floats.
Proof.
  intros p j q E D x I. unfold en_hpoint in E. open_struct E. unfold de_hpoint in D. find_fields_in D. repeat some_field D.
  apply in_app_iff in I as [[<-|[<-|[]]]|I]; [eauto using f32_back|eauto using f32_back|].
  apply in_app_iff in I as [I|I]; [exact (back_handle _ _ _ F1 R1 x I)|exact (back_handle _ _ _ F2 R2 x I)].
Qed.
Lemma back_inner : back (en_inner S) (de_inner S) inner_floats.
Proof.
  intros i j q E D x I. destruct i as [c|c|c o]; cbn [en_inner inner_floats] in *; unfold jnewtype in E.
  - destruct (en_vec _ c) as [k|] eqn:F; [|discriminate]. injection E as <-. unfold de_inner in D. cbn [variant obind] in D.
    change (str_eqb (lit "Cubic") (lit "Cubic")) with true in D. cbn iota in D. cbn [obind] in D.
    destruct (de_vec _ k) as [l|] eqn:G; [|discriminate]. now apply (back_vec _ _ _ back_point _ _ _ F G).
  - destruct (en_vec _ c) as [k|] eqn:F; [|discriminate]. injection E as <-. unfold de_inner in D. cbn [variant obind] in D.
    change (str_eqb (lit "Quad") (lit "Cubic")) with false in D. change (str_eqb (lit "Quad") (lit "Quad")) with true in D.
    cbn iota in D. cbn [obind] in D.
    destruct (de_vec _ k) as [l|] eqn:G; [|discriminate]. now apply (back_vec _ _ _ back_qpoint _ _ _ F G).
  - destruct (jstruct _) as [k|] eqn:F; [|discriminate]. injection E as <-. unfold de_inner in D. cbn [variant obind] in D.
    change (str_eqb (lit "Hyper") (lit "Cubic")) with false in D. change (str_eqb (lit "Hyper") (lit "Quad")) with false in D.
    change (str_eqb (lit "Hyper") (lit "Hyper")) with true in D. cbn iota in D. cbn [obind] in D.
    destruct (de_hyper_inner S k) as [[l o']|] eqn:G; [|discriminate]. open_struct F. unfold de_hyper_inner in G. find_fields_in G. some_field G.
    now apply (back_vec _ _ _ back_hpoint _ _ _ F0 R).
Qed.
Lemma back_contour c j d x : en_mcontour S c = Some j -> de_mcontour S j = Some d -> float_in_contour x c -> is_finite x = true.
Proof.
  intros E D H. revert j d E D. induction H as [i o I|i p c I _ IH]; intros j d E D; cbn [en_mcontour] in E; open_struct E;
    rewrite de_mcontour_step in D.
  - find_fields_in D. some_field D. some_field D. apply in_app_iff in I as [I|I]; [now apply (back_inner _ _ _ F R)|].
    destruct o as [o|]; [|destruct I]. destruct (opt_back _ _ _ _ _ F0 R0) as (k & y & V & V').
    { intros j'. destruct o; apply jnewtype_nonnull. }
    destruct o as [v|p|a]; cbn [en_operations operation_floats] in *; unfold jnewtype, jstruct in V; cbn [fields] in V.
    + destruct (en_vws v) as [w|] eqn:W; [|discriminate]. injection V as <-. unfold de_operations in V'. cbn [variant obind] in V'.
      change (str_eqb (lit "VariableWidthStroke") (lit "VariableWidthStroke")) with true in V'. cbn iota in V'.
      unfold variant_data in V'. find_fields_in V'. some_field V'. now apply (back_vws _ _ _ W R1).
    + destruct (en_pap _ p) as [w|] eqn:W; [|discriminate]. injection V as <-. unfold de_operations in V'. cbn [variant obind] in V'.
      change (str_eqb (lit "PatternAlongPath") (lit "VariableWidthStroke")) with false in V'.
      change (str_eqb (lit "PatternAlongPath") (lit "PatternAlongPath")) with true in V'. cbn iota in V'.
      unfold variant_data in V'. find_fields_in V'. some_field V'. now apply (proj1 (back_pap _ _ _ _ _ W R1)).
    + destruct (en_dash a) as [w|] eqn:W; [|discriminate]. injection V as <-. unfold de_operations in V'. cbn [variant obind] in V'.
      change (str_eqb (lit "DashAlongPath") (lit "VariableWidthStroke")) with false in V'.
      change (str_eqb (lit "DashAlongPath") (lit "PatternAlongPath")) with false in V'.
      change (str_eqb (lit "DashAlongPath") (lit "DashAlongPath")) with true in V'. cbn iota in V'.
      unfold variant_data in V'. find_fields_in V'. some_field V'. now apply (back_dash _ _ _ W R1).
  - find_fields_in D. some_field D. some_field D. destruct (opt_back _ _ _ _ _ F0 R0) as (k & y & V & V').
    { intros j'. apply jnewtype_nonnull. }
    cbn [en_operations] in V. unfold jnewtype, jstruct in V; cbn [fields] in V.
    destruct (en_pap _ p) as [w|] eqn:W; [|discriminate]. injection V as <-. unfold de_operations in V'. cbn [variant obind] in V'.
    change (str_eqb (lit "PatternAlongPath") (lit "VariableWidthStroke")) with false in V'.
    change (str_eqb (lit "PatternAlongPath") (lit "PatternAlongPath")) with true in V'. cbn iota in V'.
    unfold variant_data in V'. find_fields_in V'. some_field V'.
    destruct (proj2 (back_pap _ _ _ _ _ W R1) c I) as (k & d' & E' & D'). exact (IH k d' E' D').
Qed.
Lemma color_float_back o j o' x : en_opt (en_color S) o = Some j -> de_opt (de_color S) j = Some o' ->
  In (IFloat x) (numbers_of_color o) -> is_finite x = true.
Proof.
  intros E D I. destruct o as [c|]; [|destruct I]. apply number_back. now apply (opt_color_back S _ _ _ E D c).
Qed.
Lemma guideline_float_back l j l' x : en_guideline S l = Some j -> de_guideline S j = Some l' -> guideline_float x l -> is_finite x = true.
Proof.
  intros E D [I|[I|I]].
  - destruct (guideline_back _ _ _ _ E D). destruct I as [<-|[<-|[]]]; assumption.
  - apply number_back. rewrite <- I. apply (guideline_numbers_back S _ _ _ E D).
  - destruct (gl_color l) as [c|] eqn:C; [|destruct I]. apply number_back. now apply (proj2 (guideline_numbers_back S _ _ _ E D) c).
Qed.
(** The floats of an MFEK glyph, [past]: those of its history. *)
Lemma back_mglif {H} (en : H -> option json) (de : json -> option H) m j m' :
  en_mglif S en m = Some j -> de_mglif S de j = Some m' ->
  (forall x l c, In l (mg_layers m) -> In c (l_outline l) -> float_in_contour x c -> is_finite x = true) /\
  (forall x l, In l (mg_layers m) -> In (IFloat x) (numbers_of_color (l_color l)) -> is_finite x = true) /\
  (forall x l im a, In l (mg_layers m) -> In (im, a) (l_images l) ->
    In (IFloat x) (members (i_matrix im) ++ numbers_of_color (i_color im)) \/ In x (affine_floats a) -> is_finite x = true) /\
  (forall x a, In a (mg_anchors m) -> In x [an_x a; an_y a] -> is_finite x = true) /\
  (forall x c, In c (cs_vec (mg_components m)) -> In (IFloat x) (members (c_matrix c)) -> is_finite x = true) /\
  (forall x o c p, mg_flattened m = Some o -> In c o -> In p c -> In x (coordinates p) -> is_finite x = true) /\
  (forall x rs r, mg_component_rects m = Some rs -> In r rs -> In x (rect_floats r) -> is_finite x = true) /\
  (forall x l, In l (mg_guidelines m) -> guideline_float x l -> is_finite x = true) /\
  (forall h, In h (mg_history m) -> exists k h', en h = Some k /\ de k = Some h').
Proof.
  intros E D. unfold en_mglif in E. open_struct E. unfold de_mglif in D. find_fields_in D. repeat some_field D.
  assert (L : forall l, In l (mg_layers m) -> exists k l', en_layer S l = Some k /\ de_layer S k = Some l').
  { intros l9 I. now apply (vec_back _ _ _ _ _ l9 F R). }
  split; [|split; [|split; [|split; [|split; [|split; [|split; [|split]]]]]]].
  - intros x l9 c9 I J K. destruct (L l9 I) as (k & l' & V & V'). unfold en_layer in V. open_struct V. unfold de_layer in V'. find_fields_in V'.
    repeat some_field V'.
    match goal with A : en_vec (en_mcontour S) _ = Some ?j, B : de_vec (de_mcontour S) ?j = Some _ |- _ =>
      destruct (vec_back _ _ _ _ _ c9 A B J) as (k' & y & W & W') end.
    exact (back_contour _ _ _ _ W W' K).
  - intros x l9 I J. destruct (L l9 I) as (k & l' & V & V'). unfold en_layer in V. open_struct V. unfold de_layer in V'. find_fields_in V'.
    repeat some_field V'. eapply color_float_back; eassumption.
  - intros x l9 im a9 I J K. destruct (L l9 I) as (k & l' & V & V'). unfold en_layer in V. open_struct V. unfold de_layer in V'. find_fields_in V'.
    repeat some_field V'.
    match goal with A : en_vec (fun im => jtuple _) _ = Some ?j, B : de_vec _ ?j = Some _ |- _ =>
      destruct (vec_back _ _ _ _ _ (im, a9) A B J) as (k' & y & W & W') end.
    cbn [fst snd] in W. open_tuple W. unfold de_placed_image in W'. lazy [obind] in W'. repeat some_field W'.
    destruct K as [K|K]; [|eapply back_affine; eassumption]. apply number_back.
    match goal with A : en_glifimage S im = Some ?j, B : de_glifimage S ?j = Some _ |- _ => destruct (image_numbers_back S _ _ _ A B) as [P Q] end.
    apply in_app_iff in K as [K|K]; [now apply P|]. destruct (i_color im) as [c9|]; [|destruct K]. now apply (Q c9).
  - intros x a9 I J.
    match goal with A : en_vec (en_anchor S) _ = Some ?j, B : de_vec _ ?j = Some _ |- _ =>
      destruct (vec_back _ _ _ _ _ a9 A B I) as (k & y & V & V') end.
    destruct (anchor_back S _ _ _ V V'). destruct J as [<-|[<-|[]]]; assumption.
  - intros x c9 I J.
    match goal with A : en_glifcomponents S _ = Some ?j, B : de_glifcomponents S ?j = Some _ |- _ =>
      unfold en_glifcomponents in A; open_struct A; unfold de_glifcomponents in B; find_fields_in B; repeat some_field B end.
    match goal with V : en_vec (en_glifcomponent S) _ = Some ?j, V' : de_vec (de_glifcomponent S) ?j = Some _ |- _ =>
      destruct (vec_back _ _ _ _ _ c9 V V' I) as (k2 & y2 & V2 & V2') end.
    apply number_back. now apply (component_numbers_back S _ _ _ V2 V2').
  - intros x o9 c9 p9 Eo I J K. rewrite Eo in *.
    match goal with A : en_opt (en_vec (en_vec (en_point S))) _ = Some ?j, B : de_opt _ ?j = Some _ |- _ =>
      destruct (opt_back _ _ _ _ _ A B) as (k1 & y1 & V & V') end.
    { intros j'. apply en_vec_nonnull. }
    destruct (vec_back _ _ _ _ _ c9 V V' I) as (k2 & y2 & V2 & V2'). destruct (vec_back _ _ _ _ _ p9 V2 V2' J) as (k3 & y3 & V3 & V3').
    exact (back_point _ _ _ V3 V3' x K).
  - intros x o9 r9 Eo I J. rewrite Eo in *.
    match goal with A : en_opt (en_vec en_rect) _ = Some ?j, B : de_opt _ ?j = Some _ |- _ =>
      destruct (opt_back _ _ _ _ _ A B) as (k1 & y1 & V & V') end.
    { intros j'. apply en_vec_nonnull. }
    destruct (vec_back _ _ _ _ _ r9 V V' I) as (k2 & y2 & V2 & V2'). exact (back_rect _ _ _ V2 V2' x J).
  - intros x l9 I J.
    match goal with A : en_vec (en_guideline S) _ = Some ?j, B : de_vec _ ?j = Some _ |- _ =>
      destruct (vec_back _ _ _ _ _ l9 A B I) as (k & y & V & V') end.
    exact (guideline_float_back _ _ _ _ V V' J).
  - intros h9 I.
    match goal with A : en_vec en _ = Some ?j, B : de_vec de ?j = Some _ |- _ => exact (vec_back _ _ _ _ _ h9 A B I) end.
Qed.
Lemma back_mfek m j m' x : en_mfekglif S m = Some j -> de_mfekglif S j = Some m' -> float_in_mfek x m -> is_finite x = true.
Proof.
  intros E D H. revert j m' E D.
  induction H as [m l c|m l|m l im a|m a|m c|m o c p|m rs r|m l|m d li ci pi gl sel m2 l I J G|m d li ci pi gl sel m2 I _ IH]; intros j m' E D;
    destruct (back_mglif _ _ _ _ _ E D) as (P1 & P2 & P3 & P4 & P5 & P6 & P7 & P8 & P9); eauto;
    destruct (P9 _ I) as (k & h' & V & V'); cbn [en_history] in V; open_struct V; rewrite de_history_step in V'; find_fields_in V'; repeat some_field V'.
  - match goal with A : en_vec (en_guideline S) _ = Some ?j, B : de_vec _ ?j = Some _ |- _ =>
      destruct (vec_back _ _ _ _ _ l A B J) as (k & y & V1 & V2) end.
    exact (guideline_float_back _ _ _ _ V1 V2 G).
  - eapply IH; eassumption.
Qed.
End Back.

(** * What is read back *)

Section Written.
Context {PD PL : Type} (S : serdelib PD PL).

Lemma data_written o : en_opt (pd_en S) (data_without_null S o) = en_opt (pd_en S) o.
Proof. destruct o as [d|]; [|reflexivity]. cbn. destruct (pd_en S d) as [[]|] eqn:E; cbn [en_opt]; rewrite ?E; reflexivity. Qed.
Lemma data_kept o : data_ok S (data_without_null S o).
Proof.
  intros d. destruct o as [d'|]; [|discriminate]. cbn.
  destruct (pd_en S d') as [j|] eqn:E; [|intros [= <-]; congruence]. destruct j; try discriminate; intros [= <-]; rewrite E; discriminate.
Qed.
Lemma q_written p : en_qpoint S (q_without_null S p) = en_qpoint S p.
Proof. unfold en_qpoint, q_without_null. cbn [q_x q_y q_a q_name q_ptype q_smooth q_data]. now rewrite data_written. Qed.
Lemma h_written p : en_hpoint S (h_without_null S p) = en_hpoint S p.
Proof. unfold en_hpoint, h_without_null. cbn [h_x h_y h_a h_b h_kind h_smooth h_data]. now rewrite data_written. Qed.
Lemma inner_written i : en_inner S (inner_without_null S i) = en_inner S i.
Proof.
  destruct i as [c|c|c o]; cbn [en_inner inner_without_null].
  - now rewrite (vec_map _ _ _ (without_null_written S)).
  - now rewrite (vec_map _ _ _ q_written).
  - now rewrite (vec_map _ _ _ h_written).
Qed.
Lemma elements_map_in {A} (en : A -> option json) f l : (forall x, In x l -> en (f x) = en x) -> elements en (map f l) = elements en l.
Proof. intros H. induction l as [|x l IH]; [reflexivity|]. cbn [map]. rewrite !elements_cons, H by now left. rewrite IH; [reflexivity|]. intros y I. apply H. now right. Qed.
Lemma vec_map_in {A} (en : A -> option json) f l : (forall x, In x l -> en (f x) = en x) -> en_vec en (map f l) = en_vec en l.
Proof. intros H. unfold en_vec. now rewrite elements_map_in. Qed.
Lemma contour_written c : en_mcontour S (contour_without_null S c) = en_mcontour S c.
Proof.
  induction c as [i o IH] using mcontour_nested. cbn [contour_without_null en_mcontour]. rewrite inner_written.
  destruct o as [[v|p|d]|]; try reflexivity. cbn [en_opt en_operations]. unfold en_pap, pap_map.
  cbn [pp_pattern pp_copies pp_subdivide pp_is_vertical pp_stretch pp_spacing pp_simplify pp_normal_offset pp_tangent_offset pp_pattern_scale pp_center_pattern pp_prevent_overdraw pp_two_pass_culling pp_reverse_path pp_reverse_culling pp_warp_pattern pp_split_path].
  now rewrite vec_map_in by (intros c; now apply IH).
Qed.
Lemma layer_written l : en_layer S (layer_without_null S l) = en_layer S l.
Proof.
  unfold en_layer, layer_without_null. cbn [l_name l_visible l_color l_outline l_operation l_images].
  unfold moutline. now rewrite (vec_map _ _ _ contour_written).
Qed.
Lemma mglif_written {H} (en : H -> option json) f m : (forall h, In h (mg_history m) -> en (f h) = en h) ->
  en_mglif S en (mglif_without_null S f m) = en_mglif S en m.
Proof.
  intros E. unfold en_mglif, mglif_without_null.
  cbn [mg_layers mg_history mg_anchors mg_components mg_flattened mg_component_rects mg_guidelines mg_width mg_unicode mg_name mg_note].
  rewrite (vec_map _ _ _ layer_written), (vec_map_in _ _ _ E). destruct (mg_flattened m) as [o|]; [|reflexivity]. cbn [option_map en_opt].
  now rewrite (vec_map _ (map (without_null S))) by (intros c; apply vec_map, without_null_written).
Qed.
Lemma entry_written h : en_history S (entry_without_null S h) = en_history S h.
Proof.
  induction h as [d li ci pi gl sel m IH] using history_nested. cbn [entry_without_null en_history]. now rewrite mglif_written.
Qed.
Lemma mfek_written m : en_mfekglif S (mfek_without_null S m) = en_mfekglif S m.
Proof. apply mglif_written. intros h _. apply entry_written. Qed.

(** Floats that are finite and have 32 bits. *)
Lemma ok32 l : all32 l -> (forall x, In x l -> is_finite x = true) -> forall x, In x l -> f32_ok x.
Proof. intros A F x I. split; auto. Qed.
Lemma ok_numbers l : numbers32 l -> (forall x, In (IFloat x) l -> is_finite x = true) -> forall i, In i l -> iof_ok i.
Proof. intros A F [z|x] I; [exact Logic.I|]. split; auto. Qed.
Lemma handle_kept h : (forall x, In x (handle_floats h) -> f32_ok x) -> handle_ok h.
Proof. destruct h as [x y|]; [|easy]. intros H. split; apply H; cbn; tauto. Qed.
Lemma point_kept p : (forall x, In x (coordinates p) -> f32_ok x) -> point_ok S (without_null S p).
Proof.
  intros H. unfold point_ok, without_null. cbn [px py pa pb pdata]. unfold coordinates in H.
  split; [apply H; cbn; tauto|]. split; [apply H; cbn; tauto|].
  split; [apply handle_kept; intros x I; apply H; rewrite !in_app_iff; tauto|].
  split; [apply handle_kept; intros x I; apply H; rewrite !in_app_iff; tauto|]. exact (data_kept (pdata p)).
Qed.
Lemma q_kept p : (forall x, In x (qpoint_floats p) -> f32_ok x) -> qpoint_ok S (q_without_null S p).
Proof.
  intros H. unfold qpoint_ok, q_without_null. cbn [q_x q_y q_a q_data]. unfold qpoint_floats in H.
  split; [apply H; cbn; tauto|]. split; [apply H; cbn; tauto|].
  split; [apply handle_kept; intros x I; apply H; rewrite !in_app_iff; tauto|]. apply data_kept.
Qed.
Lemma h_kept p : (forall x, In x (hpoint_floats p) -> f32_ok x) -> hpoint_ok S (h_without_null S p).
Proof.
  intros H. unfold hpoint_ok, h_without_null. cbn [h_x h_y h_a h_b h_data]. unfold hpoint_floats in H.
  split; [apply H; cbn; tauto|]. split; [apply H; cbn; tauto|].
  split; [apply handle_kept; intros x I; apply H; rewrite !in_app_iff; tauto|].
  split; [apply handle_kept; intros x I; apply H; rewrite !in_app_iff; tauto|]. apply data_kept.
Qed.
Lemma Forall_map_in {A B} (P : B -> Prop) (f : A -> B) l : (forall a, In a l -> P (f a)) -> Forall P (map f l).
Proof. intros H. apply Forall_forall. intros b I. apply in_map_iff in I as (a & <- & I). auto. Qed.
Lemma inner_kept i : (forall x, In x (inner_floats i) -> f32_ok x) -> inner_ok S (inner_without_null S i).
Proof.
  destruct i as [c|c|c o]; cbn [inner_floats inner_ok inner_without_null]; intros H; apply Forall_map_in; intros p I;
    [apply point_kept|apply q_kept|apply h_kept]; intros x J; apply H, in_flat_map; eauto.
Qed.
Lemma contour_kept c : typed_contour c -> (forall x, float_in_contour x c -> is_finite x = true) -> mcontour_ok S (contour_without_null S c).
Proof.
  induction 1 as [i o A D U _ IH]. intros F. cbn [contour_without_null].
  assert (Fi : forall x, In x (inner_floats i) -> is_finite x = true) by (intros x I; apply F, float_here, in_app_iff; now left).
  assert (Fo : forall x, In x (operation_floats o) -> is_finite x = true) by (intros x I; apply F, float_here, in_app_iff; now right).
  pose proof (inner_kept i (ok32 _ A Fi)) as K. clear A Fi.
  destruct o as [[v|p|d]|]; cbn [operation_floats] in Fo.
  - apply contour_vws; [exact K|]. apply Forall_forall. intros h I. unfold vws_handle_ok, f64_ok.
    repeat split; apply Fo, in_flat_map; exists h; cbn; tauto.
  - apply contour_pap; [exact K| |].
    + unfold pap_ok, f64_ok, pap_map, pap_floats in *.
      cbn [pp_subdivide pp_spacing pp_normal_offset pp_tangent_offset pp_pattern_scale pp_prevent_overdraw].
      split; [destruct (pp_subdivide p) as [|n|a] eqn:E; [easy|exact (U p n eq_refl E)|apply Fo; rewrite !in_app_iff; cbn; tauto]|].
      repeat (split; [apply Fo; rewrite !in_app_iff; cbn; tauto|]).
      destruct (pp_prevent_overdraw p); try exact I. split; apply Fo; rewrite !in_app_iff; cbn; tauto.
    + intros c I. cbn [pap_map pp_pattern] in I. apply in_map_iff in I as (c' & <- & I). apply (IH p c' eq_refl I).
      intros x J. apply F. exact (float_in_pattern x i p c' I J).
  - destruct (D d eq_refl) as (A & B & C). pose proof (ok32 _ A Fo) as G. unfold dash_floats in G.
    apply contour_dash; [exact K|]. split; [apply G; now left|]. split; [|split; [|now split]].
    + intros c E. rewrite E in G. cbn [cull_floats] in G. split; apply G; cbn; tauto.
    + apply Forall_forall. intros x I. apply G. right. apply in_app_iff. now right.
  - apply contour_plain, K.
Qed.
Lemma color_kept o : numbers32 (numbers_of_color o) -> (forall x, In (IFloat x) (numbers_of_color o) -> is_finite x = true) -> if_some color_ok o.
Proof. intros A F c ->. pose proof (ok_numbers _ A F) as G. repeat split; apply G; cbn; tauto. Qed.
Lemma matrix_kept m : numbers32 (members m) -> (forall x, In (IFloat x) (members m) -> is_finite x = true) -> matrix_ok m.
Proof. intros A F. pose proof (ok_numbers _ A F) as G. repeat split; apply G; cbn; tauto. Qed.
Lemma guideline_kept (l : guideline PD) : typed_guideline l -> (forall x, guideline_float x l -> is_finite x = true) -> guideline_ok l.
Proof.
  intros [A B] F. assert (forall x, In x [gl_x l; gl_y l] -> f32_ok x) as G by (apply ok32; [exact A|intros x I; apply F; now left]).
  split; [apply G; cbn; tauto|]. split; [apply G; cbn; tauto|]. split.
  - apply (ok_numbers _ B); [|now left]. intros x I. apply F. now right.
  - apply color_kept; [|intros x I; apply F; right; now right]. intros x I. apply B. now right.
Qed.
Lemma now_kept {H} (f : H -> H) (m : mglif PD H) : typed_now m ->
  (forall x l c, In l (mg_layers m) -> In c (l_outline l) -> float_in_contour x c -> is_finite x = true) ->
  (forall x l, In l (mg_layers m) -> In (IFloat x) (numbers_of_color (l_color l)) -> is_finite x = true) ->
  (forall x l im a, In l (mg_layers m) -> In (im, a) (l_images l) ->
    In (IFloat x) (members (i_matrix im) ++ numbers_of_color (i_color im)) \/ In x (affine_floats a) -> is_finite x = true) ->
  (forall x a, In a (mg_anchors m) -> In x [an_x a; an_y a] -> is_finite x = true) ->
  (forall x c, In c (cs_vec (mg_components m)) -> In (IFloat x) (members (c_matrix c)) -> is_finite x = true) ->
  (forall x o c p, mg_flattened m = Some o -> In c o -> In p c -> In x (coordinates p) -> is_finite x = true) ->
  (forall x rs r, mg_component_rects m = Some rs -> In r rs -> In x (rect_floats r) -> is_finite x = true) ->
  (forall x l, In l (mg_guidelines m) -> guideline_float x l -> is_finite x = true) ->
  mglif_ok S (mglif_without_null S f m).
Proof.
  intros (T1 & T2 & T3 & T4 & T5 & T6 & T7 & T8) F1 F2 F3 F4 F5 F6 F7 F8. rewrite Forall_forall in T1, T7.
  unfold mglif_ok, mglif_without_null. cbn [mg_layers mg_anchors mg_components mg_flattened mg_component_rects mg_guidelines mg_width].
  split; [|split; [|split; [|split; [|split; [|split; [|exact T8]]]]]].
  - apply Forall_map_in. intros l I. destruct (T1 l I) as (A & B & C). rewrite Forall_forall in B, C.
    unfold layer_ok, layer_without_null. cbn [l_color l_outline l_images]. split; [|split].
    + apply color_kept; [exact A|]. intros x. now apply F2.
    + apply Forall_map_in. intros c J. apply contour_kept; [now apply B|]. intros x. now apply (F1 x l c).
    + apply Forall_forall. intros [im a] J. pose proof (C _ J) as N. cbn [fst snd] in *. split; [split|].
      * apply matrix_kept; intros x K; [apply N; apply in_app_iff; now left|]. apply (F3 x l im a I J). left. apply in_app_iff. now left.
      * apply color_kept; intros x K; [apply N; apply in_app_iff; now right|]. apply (F3 x l im a I J). left. apply in_app_iff. now right.
      * unfold affine_ok, f64_ok. repeat split; apply (F3 _ l im a I J); right; cbn; tauto.
  - apply Forall_forall. intros a I. pose proof (ok32 _ (T2 a I) (fun x => F4 x a I)) as G. split; apply G; cbn; tauto.
  - split; [|exact T4]. apply Forall_forall. intros c I. destruct (T3 c I) as [A B]. split; [exact B|].
    apply matrix_kept; [exact A|]. intros x. now apply F5.
  - intros o E. destruct (mg_flattened m) as [o'|]; [|discriminate]. injection E as <-. apply Forall_map_in. intros c I. apply Forall_map_in. intros p J.
    apply point_kept, ok32; [now apply (T5 o' c p)|]. intros x. now apply (F6 x o' c p).
  - intros rs E. apply Forall_forall. intros r I. pose proof (ok32 _ (T6 rs r E I) (fun x => F7 x rs r E I)) as G.
    repeat split; apply G; cbn; tauto.
  - apply Forall_forall. intros l I. apply guideline_kept; [now apply T7|]. intros x. now apply F8.
Qed.
Lemma entry_kept h : typed_entry h ->
  (let 'HEntry _ _ _ _ gl _ m := h in (forall x l, In l gl -> guideline_float x l -> is_finite x = true) /\ (forall x, float_in_mfek x m -> is_finite x = true)) ->
  history_ok S (entry_without_null S h).
Proof.
  induction 1 as [d li ci pi gl sel m A B C G E T _ IH]. intros [F1 F2]. cbn [entry_without_null]. apply entry_ok; try assumption.
  - rewrite Forall_forall in *. intros l I. apply guideline_kept; [now apply G|]. intros x. now apply F1.
  - apply now_kept; [exact T|..]; intros; apply F2.
    + eapply float_in_layer; eassumption.
    + eapply float_in_layer_color; eassumption.
    + eapply float_in_image; eassumption.
    + eapply float_in_anchor; eassumption.
    + eapply float_in_component; eassumption.
    + eapply float_in_flattened; eassumption.
    + eapply float_in_rect; eassumption.
    + eapply float_in_guideline; eassumption.
  - intros h I. cbn [mglif_without_null mg_history] in I. apply in_map_iff in I as (h' & <- & I). apply (IH h' I).
    destruct h' as [d' li' ci' pi' gl' sel' m']. split.
    + intros x l J K. apply F2. eapply float_in_entry; eassumption.
    + intros x K. apply F2. eapply float_in_past; eassumption.
Qed.
Lemma mfek_kept m : typed_mfek m -> (forall x, float_in_mfek x m -> is_finite x = true) -> mfekglif_ok S (mfek_without_null S m).
Proof.
  intros [T E] F. split.
  - apply now_kept; [exact T|..]; intros; apply F.
    + eapply float_in_layer; eassumption.
    + eapply float_in_layer_color; eassumption.
    + eapply float_in_image; eassumption.
    + eapply float_in_anchor; eassumption.
    + eapply float_in_component; eassumption.
    + eapply float_in_flattened; eassumption.
    + eapply float_in_rect; eassumption.
    + eapply float_in_guideline; eassumption.
  - apply Forall_map_in. intros h I. apply entry_kept; [now apply E|]. destruct h as [d' li' ci' pi' gl' sel' m']. split.
    + intros x l J K. apply F. eapply float_in_entry; eassumption.
    + intros x K. apply F. eapply float_in_past; eassumption.
Qed.
End Written.
