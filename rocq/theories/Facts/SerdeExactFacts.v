(** Exactly which saved glyphs are loaded again. *)
Require Import Coq.Strings.String Coq.Lists.List Coq.NArith.NArith Coq.ZArith.ZArith Coq.Bool.Bool Coq.micromega.Lia.
Require Import Verif.Model.Base Verif.Model.Text Verif.Model.Float Verif.Model.Num Verif.Model.Point
  Verif.Model.Contour Verif.Model.Names Verif.Model.Color Verif.Model.Xml Verif.Model.Parts Verif.Model.Component
  Verif.Model.Mpoint Verif.Model.Mfek Verif.Model.Serde Verif.Spec.SerdeSpec Verif.Facts.SerdeFacts.
Import ListNotations.
Local Open Scope string_scope.
Local Open Scope list_scope.

Section Exact.
Context {PD PL : Type} (S : serdelib PD PL).

Lemma without_null_written p : en_point S (without_null S p) = en_point S p.
Proof.
  unfold en_point, without_null. cbn [px py pa pb pname pptype psmooth pdata]. unfold jstruct. cbn [fields].
  destruct (pdata p) as [d|]; [|reflexivity]. cbn [en_opt]. destruct (pd_en S d) as [[]|] eqn:E; cbn [en_opt]; rewrite ?E; reflexivity.
Qed.
Lemma elements_map {A} (en : A -> option json) f l : (forall x, en (f x) = en x) -> elements en (map f l) = elements en l.
Proof. intros H. induction l as [|x l IH]; [reflexivity|]. cbn [map]. now rewrite !elements_cons, H, IH. Qed.
Lemma vec_map {A} (en : A -> option json) f l : (forall x, en (f x) = en x) -> en_vec en (map f l) = en_vec en l.
Proof. intros H. unfold en_vec. now rewrite elements_map. Qed.
Lemma glif_without_null_written g : en_glif S (glif_without_null S g) = en_glif S g.
Proof.
  unfold en_glif, glif_without_null. cbn [g_outline g_anchors g_components g_guidelines g_images g_width g_unicode g_name g_note g_lib].
  destruct (g_outline g) as [o|]; [|reflexivity]. cbn [option_map en_opt].
  now rewrite (vec_map _ (map (without_null S))) by (intros c; apply vec_map, without_null_written).
Qed.

Lemma without_null_data p : data_ok S (pdata (without_null S p)).
Proof.
  intros d. unfold without_null. cbn [pdata]. destruct (pdata p) as [d'|]; [|discriminate].
  destruct (pd_en S d') as [j|] eqn:E; [|intros [= <-]; congruence]. destruct j; try discriminate; intros [= <-]; rewrite E; discriminate.
Qed.

Lemma exact_ok g : typed_glif g -> (forall x, coordinate g x -> is_finite x = true) -> (forall x, file_number g (IFloat x) -> is_finite x = true) ->
  glif_ok S (glif_without_null S g).
Proof.
  intros (T1 & T2 & T3 & T4 & T5) F1 F2.
  assert (N : forall i, file_number g i -> iof_ok i).
  { intros [z|x] H; [exact I|]. split; auto. }
  assert (C : forall x, coordinate g x -> f32_ok x) by (intros x H; split; auto).
  unfold glif_ok, glif_without_null. cbn [g_outline g_anchors g_components g_guidelines g_images g_width].
  split; [|split; [|split; [|split; [|split]]]].
  - intros o E. destruct (g_outline g) as [o'|] eqn:Eo; [|discriminate]. injection E as <-. unfold outline_ok.
    apply Forall_forall. intros c Hc. apply in_map_iff in Hc as (c' & <- & Hc). apply Forall_forall. intros p Hp.
    apply in_map_iff in Hp as (p' & <- & Hp). unfold point_ok.
    assert (K : forall x, (x = px p' \/ x = py p' \/ (exists y, pa p' = At x y \/ pa p' = At y x \/ pb p' = At x y \/ pb p' = At y x)) -> f32_ok x).
    { intros x H. apply C. eapply point_coordinate; eassumption. }
    split; [apply K; now left|]. split; [apply K; now right; left|]. split; [|split; [|apply without_null_data]]; cbn [without_null pa pb].
    + destruct (pa p') as [x y|] eqn:E; [|exact I]. split; apply K; right; right; [exists y|exists x]; tauto.
    + destruct (pb p') as [x y|] eqn:E; [|exact I]. split; apply K; right; right; [exists y|exists x]; tauto.
  - apply Forall_forall. intros a Ha. split; apply C; eapply anchor_coordinate; eauto.
  - split; [|exact T4]. apply Forall_forall. intros c Hc. split; [intros p Hp; now apply (T3 c)|].
    unfold matrix_ok. repeat split; apply N; apply (component_number g c); auto; cbn; tauto.
  - apply Forall_forall. intros l Hl. split; [apply C; eapply guideline_coordinate; eauto|]. split; [apply C; eapply guideline_coordinate; eauto|].
    split; [apply N; now constructor|]. intros c Hc. unfold color_ok. repeat split; apply N; eapply guideline_color_number; eauto; cbn; tauto.
  - apply Forall_forall. intros m Hm. split; [|intros c Hc; unfold color_ok; repeat split; apply N; eapply image_color_number; eauto; cbn; tauto].
    unfold matrix_ok. repeat split; apply N; apply (image_number g m); auto; cbn; tauto.
  - intros w Hw. unfold a_u64. specialize (T5 w Hw). lia.
Qed.

Lemma color_back c j c' : en_color S c = Some j -> de_color S j = Some c' -> forall i, In i [cr c; cg c; cb c; ca c] -> iof_de S (iof_en S i) <> None.
Proof.
  intros E D i H. unfold en_color in E. open_struct E. unfold de_color in D. find_fields_in D. repeat some_field D.
  destruct H as [<-|[<-|[<-|[<-|[]]]]]; congruence.
Qed.
Lemma component_numbers_back c j c' : en_glifcomponent S c = Some j -> de_glifcomponent S j = Some c' ->
  forall i, In i (matrix_numbers (c_matrix c)) -> iof_de S (iof_en S i) <> None.
Proof.
  intros E D i H. unfold en_glifcomponent in E. cbv zeta in E. open_struct E. unfold de_glifcomponent in D. find_fields_in D. repeat some_field D.
  destruct H as [<-|[<-|[<-|[<-|[<-|[<-|[]]]]]]]; congruence.
Qed.
Lemma opt_color_back o j o' : en_opt (en_color S) o = Some j -> de_opt (de_color S) j = Some o' ->
  forall c i, o = Some c -> In i [cr c; cg c; cb c; ca c] -> iof_de S (iof_en S i) <> None.
Proof.
  intros E D c i -> H. destruct (opt_back _ _ _ _ _ E D) as (k & y & V & V').
  { intros j'. apply jstruct_nonnull. }
  now apply (color_back c k y).
Qed.
Lemma image_numbers_back m j m' : en_glifimage S m = Some j -> de_glifimage S j = Some m' ->
  (forall i, In i (matrix_numbers (i_matrix m)) -> iof_de S (iof_en S i) <> None) /\
  (forall c i, i_color m = Some c -> In i [cr c; cg c; cb c; ca c] -> iof_de S (iof_en S i) <> None).
Proof.
  intros E D. unfold en_glifimage in E. cbv zeta in E. open_struct E. unfold de_glifimage in D. find_fields_in D. repeat some_field D. split.
  - intros i9 H. destruct H as [<-|[<-|[<-|[<-|[<-|[<-|[]]]]]]]; congruence.
  - eapply opt_color_back; eassumption.
Qed.
Lemma guideline_numbers_back l j l' : en_guideline S l = Some j -> de_guideline S j = Some l' ->
  iof_de S (iof_en S (gl_angle l)) <> None /\
  (forall c i, gl_color l = Some c -> In i [cr c; cg c; cb c; ca c] -> iof_de S (iof_en S i) <> None).
Proof.
  intros E D. unfold en_guideline in E.
  destruct (jstruct [("x", _); ("y", _)]) as [at_|] eqn:A; [|discriminate]. open_struct E.
  unfold de_guideline in D. find_fields_in D. some_field D. destruct p as [x y]. repeat some_field D. split; [congruence|].
  eapply opt_color_back; eassumption.
Qed.
Lemma glif_numbers_back g j g' i : en_glif S g = Some j -> de_glif S j = Some g' -> file_number g i -> iof_de S (iof_en S i) <> None.
Proof.
  intros E D C. unfold en_glif in E. open_struct E. unfold de_glif in D. find_fields_in D.
  some_field D. some_field D. some_field D. some_field D. some_field D.
  destruct C as [l9 Il|l9 c i Il Ec Ic|c i Hc Hi|m i Hm Hi|m c i Hm Ec Ic].
  - destruct (vec_back _ _ _ _ _ l9 F2 R2 Il) as (k2 & y2 & V2 & V2'). apply (guideline_numbers_back _ _ _ V2 V2').
  - destruct (vec_back _ _ _ _ _ l9 F2 R2 Il) as (k2 & y2 & V2 & V2'). now apply (proj2 (guideline_numbers_back _ _ _ V2 V2') c).
  - unfold en_glifcomponents in F1. open_struct F1. unfold de_glifcomponents in R1. find_fields_in R1. repeat some_field R1.
    match goal with V : en_vec (en_glifcomponent S) _ = Some ?j, V' : de_vec (de_glifcomponent S) ?j = Some _ |- _ =>
      destruct (vec_back _ _ _ _ _ c V V' Hc) as (k2 & y2 & V2 & V2') end.
    now apply (component_numbers_back _ _ _ V2 V2').
  - destruct (vec_back _ _ _ _ _ m F3 R3 Hm) as (k2 & y2 & V2 & V2'). now apply (proj1 (image_numbers_back _ _ _ V2 V2')).
  - destruct (vec_back _ _ _ _ _ m F3 R3 Hm) as (k2 & y2 & V2 & V2'). now apply (proj2 (image_numbers_back _ _ _ V2 V2') c).
Qed.
End Exact.
