(** Flattened contours keep their types and have proper numbers. *)
Require Import Coq.Strings.String Coq.Lists.List Coq.NArith.NArith Coq.ZArith.ZArith Coq.Bool.Bool Coq.Floats.SpecFloat Coq.Relations.Relation_Operators.
Require Import Verif.Model.Base Verif.Model.Text Verif.Model.Float Verif.Model.Num Verif.Model.RustNum Verif.Model.Point Verif.Model.Contour
  Verif.Model.Names Verif.Model.Pedantry Verif.Model.Xml Verif.Model.Parts Verif.Model.Read Verif.Model.Component
  Verif.Spec.OutlineSpec Verif.Spec.GlyphSpec Verif.Spec.OpenSpec Verif.Spec.ComponentSpec Verif.Spec.FlatSpec
  Verif.Facts.RoundFacts Verif.Facts.ComponentFacts Verif.Facts.OpenFacts.
Import ListNotations.
Local Open Scope list_scope.

(** The contours of the glyphs the references lead to and of the glyphs these include: no deeper. *)
Definition contour_near {PD PL} (load : glifcomponent -> res (component PD PL)) (rs : list glifcomponent) (c : list (point PD)) : Prop :=
  exists r0 k0, In r0 rs /\ load r0 = Ok k0 /\
    (In c (own_contours k0) \/ exists r k, In r (parts k0) /\ load r = Ok k /\ In c (own_contours k)).

(** A contour that cannot be saved: without a point on the curve, or with a point of a type that does not exist in files. *)
Definition unsavable {PD} (c : list (point PD)) : Prop :=
  (forall p, In p c -> pptype p = OffCurve) \/ exists p, In p c /\ (pptype p = Undefined \/ pptype p = QClose).

Lemma move_xy_valid ms : forall x y, valid32 x = true -> valid32 y = true ->
  valid32 (fst (move_xy ms x y)) = true /\ valid32 (snd (move_xy ms x y)) = true.
Proof.
  unfold move_xy. induction ms as [|m ms IH]; intros x y Hx Hy; [now split|]. cbn [fold_left]. unfold apply_xy at 2 4.
  destruct (affine_apply m _ _) as [x' y']. apply IH; apply f32_of_f64_valid.
Qed.
Lemma move_handle_valid ms h : (forall x y, h = At x y -> valid32 x = true /\ valid32 y = true) ->
  forall x y, move_handle ms h = At x y -> valid32 x = true /\ valid32 y = true.
Proof.
  intros H x y E. destruct h as [a b|]; [|discriminate]. destruct (H a b eq_refl) as [A B]. pose proof (move_xy_valid ms a b A B) as V. cbn [move_handle] in E.
  destruct (move_xy ms a b). injection E as <- <-. exact V.
Qed.

Section Flat.
Context {PD PL : Type}.

Lemma moved_coordinates ms (p q : point PD) : moved_point ms p q ->
  (forall f, In f (coordinates p) -> valid32 f = true) -> forall f, In f (coordinates q) -> valid32 f = true.
Proof.
  intros (E & Ea & Eb & _) H. unfold coordinates in *.
  pose proof (move_xy_valid ms (px p) (py p) (H _ ltac:(now left)) (H _ ltac:(right; now left))) as V. rewrite <- E in V. cbn [fst snd] in V.
  assert (forall x y, pa p = At x y -> valid32 x = true /\ valid32 y = true) as Ha by (intros x y X; rewrite X in H; split; apply H; cbn; tauto).
  assert (forall x y, pb p = At x y -> valid32 x = true /\ valid32 y = true) as Hb.
  { intros x y X. rewrite X in H. split; apply H; rewrite !in_app_iff; cbn; tauto. }
  pose proof (move_handle_valid ms _ Ha) as Va. pose proof (move_handle_valid ms _ Hb) as Vb. rewrite <- Ea in Va. rewrite <- Eb in Vb. clear - V Va Vb.
  intros f. rewrite !in_app_iff. intros [[<-|[<-|[]]]|[Hf|Hf]]; try tauto.
  - destruct (pa q) as [x y|]; [|destruct Hf]. destruct (Va x y eq_refl). destruct Hf as [<-|[<-|[]]]; assumption.
  - destruct (pb q) as [x y|]; [|destruct Hf]. destruct (Vb x y eq_refl). destruct Hf as [<-|[<-|[]]]; assumption.
Qed.

Lemma moved_types ms (c c' : list (point PD)) : moved ms c c' -> map pptype c' = map pptype c.
Proof. induction 1 as [|p q l l' (_ & _ & _ & _ & E & _) _ IH]; [reflexivity|]. cbn [map]. now rewrite E, IH. Qed.
Lemma types_form (c c' : list (point PD)) : map pptype c' = map pptype c -> cubic_contour_form c -> cubic_contour_form c'.
Proof.
  intros E (p & t & -> & Hp & Ht). destruct c' as [|q u]; [discriminate|]. cbn [map] in E. injection E as Ep Et. exists q, u. split; [reflexivity|]. rewrite Ep. split.
  - destruct Hp as [[X Y]|Hp]; [left|tauto]. split; [exact X|]. intros ->. destruct t; [congruence|discriminate].
  - clear - Et Ht. revert t Et Ht. induction u as [|x u IH]; intros [|y t] E H; try discriminate; [constructor|]. cbn [map] in E. injection E as E1 E2. inversion_clear H as [|? ? H1 H2].
    constructor; [now rewrite E1|eapply IH; eassumption].
Qed.
Lemma types_unsavable (c c' : list (point PD)) : map pptype c' = map pptype c -> unsavable c -> unsavable c'.
Proof.
  intros E.
  assert (forall p, In p c -> exists q, In q c' /\ pptype q = pptype p) as T.
  { intros p Hp. apply (in_map pptype) in Hp. rewrite <- E in Hp. apply in_map_iff in Hp as (q & X & Y). eauto. }
  assert (forall q, In q c' -> exists p, In p c /\ pptype q = pptype p) as T'.
  { intros q Hq. apply (in_map pptype) in Hq. rewrite E in Hq. apply in_map_iff in Hq as (p & X & Y). eauto. }
  intros [H|(p & Hp & H)].
  - left. intros q Hq. destruct (T' q Hq) as (p & X & ->). now apply H.
  - right. destruct (T p Hp) as (q & X & Y). exists q. rewrite Y. tauto.
Qed.

(** The contours that are placed are those of the first two levels. *)
Lemma placed_near (load : glifcomponent -> res (component PD PL)) rs ts c : Forall2 (resolves load) rs ts ->
  (exists ms, In (ms, c) (flat_map upper_contours ts)) <-> contour_near load rs c.
Proof.
  intros F. unfold contour_near. split.
  - intros (ms & H). apply in_flat_map in H as (t & Ht & H).
    assert (exists r0, In r0 rs /\ resolves load r0 t) as (r0 & Hr0 & Hres).
    { clear H. induction F as [|x y l l' Hxy _ IH]; [destruct Ht|]. destruct Ht as [<-|Ht]; [exists x; split; [now left|exact Hxy]|]. destruct (IH Ht) as (r0 & A & B). exists r0. split; [now right|exact B]. }
    inversion Hres as [r k us Hl Hp]; subst. exists r0, k. split; [exact Hr0|]. split; [exact Hl|]. cbn [upper_contours] in H. apply in_app_iff in H as [H|H].
    + left. apply in_map_iff in H as (x & E & H). injection E as _ <-. exact H.
    + right. apply in_flat_map in H as (u & Hu & H). apply in_rev in Hu. apply in_map_iff in H as (x & E & H). injection E as _ <-.
      clear - Hp Hu H. induction Hp as [|r u' l l' Hr _ IH]; [destruct Hu|]. destruct Hu as [<-|Hu].
      * inversion Hr as [? k2 us2 Hl2 _]; subst. exists r, k2. split; [now left|]. split; [exact Hl2|exact H].
      * destruct (IH Hu) as (r' & k2 & A & B). exists r', k2. split; [now right|exact B].
  - intros (r0 & k0 & Hr0 & Hl & H).
    assert (exists t, In t ts /\ resolves load r0 t) as (t & Ht & Hres).
    { clear H. induction F as [|x y l l' Hxy _ IH]; [destruct Hr0|]. destruct Hr0 as [<-|Ht]; [exists y; split; [now left|exact Hxy]|]. destruct (IH Ht) as (r & A & B). exists r. split; [now right|exact B]. }
    inversion Hres as [r k us Hl' Hp]; subst. rewrite Hl in Hl'. injection Hl' as <-. destruct H as [H|(r & k & Hr & Hlk & H)].
    + exists [cp_matrix k0]. apply in_flat_map. exists (CNode k0 us). split; [exact Ht|]. cbn [upper_contours]. apply in_app_iff. left. now apply in_map.
    + assert (exists vs, In (CNode k vs) us) as (vs & Hu).
      { clear - Hp Hr Hlk. induction Hp as [|x u l l' Hx _ IH]; [destruct Hr|]. destruct Hr as [<-|Hr]; [|destruct (IH Hr) as (vs & X); exists vs; now right].
        inversion Hx as [? k' us' Hl _]; subst. rewrite Hlk in Hl. injection Hl as <-. exists us'. now left. }
      exists [cp_matrix k; cp_matrix k0]. apply in_flat_map. exists (CNode k0 us). split; [exact Ht|]. cbn [upper_contours]. apply in_app_iff. right.
      apply in_flat_map. exists (CNode k vs). split; [now apply in_rev in Hu|]. cbn [cdata]. now apply in_map.
Qed.

Lemma loaded_document L (pd0 : PD) (P : plistlib PL) {T} (files : path -> option T) (parse : T -> option element) r k :
  to_component L pd0 P files parse r = Ok k ->
  exists root new, document_of files parse r root /\ read_element L pd0 P pedantry_default root = Ok new /\ own_contours k = contours new.
Proof.
  intros H. unfold to_component in H. destruct (c_filename r) as [fn|] eqn:E1; [|discriminate]. cbn [ok_or bind] in H.
  destruct (files fn) as [txt|] eqn:E2; [|discriminate]. cbn [ok_or bind] in H. destruct (parse txt) as [root|] eqn:E3; [|discriminate]. cbn [ok_or bind] in H.
  destruct (read_element L pd0 P pedantry_default root) as [new| |] eqn:E4; try discriminate. cbn [bind] in H. injection H as <-.
  exists root, new. split; [exists fn, txt; auto|]. split; [exact E4|reflexivity].
Qed.
Lemma document_unique {T} (files : path -> option T) (parse : T -> option element) r root root' :
  document_of files parse r root -> document_of files parse r root' -> root = root'.
Proof. intros (f & t & A & B & C) (f' & t' & A' & B' & C'). congruence. Qed.
(** Every reference within two levels is loaded. *)
Lemma two_loaded (load : glifcomponent -> res (component PD PL)) rs ts r : Forall2 (resolves load) rs ts -> within_two load rs r -> exists k, load r = Ok k.
Proof.
  intros F.
  assert (forall rs ts x, Forall2 (resolves load) rs ts -> In x rs -> exists k us, load x = Ok k /\ Forall2 (resolves load) (parts k) us) as A.
  { clear. intros rs ts x F. induction F as [|a b l l' Hab _ IH]; [intros []|]. intros [<-|Hx]; [|auto]. inversion Hab; subst. eauto. }
  intros [H|(r0 & H0 & k0 & Hk & Hr)].
  - destruct (A _ _ _ F H) as (k & _ & Hk & _). eauto.
  - destruct (A _ _ _ F H0) as (k & us & Hk' & Hu). rewrite Hk in Hk'. injection Hk' as <-. destruct (A _ _ _ Hu Hr) as (k & _ & X & _). eauto.
Qed.
Lemma near_two (load : glifcomponent -> res (component PD PL)) rs c :
  contour_near load rs c <-> exists r k, within_two load rs r /\ load r = Ok k /\ In c (own_contours k).
Proof.
  unfold contour_near, within_two. split.
  - intros (r0 & k0 & H0 & Hk & [H|(r & k & Hr & Hk' & H)]); [exists r0, k0; auto|]. exists r, k. split; [|auto]. right. exists r0. split; [exact H0|]. exists k0. auto.
  - intros (r & k & [Hr|(r0 & H0 & k0 & Hk0 & Hr)] & Hk & Hc); [exists r, k; auto|]. exists r0, k0. split; [exact H0|]. split; [exact Hk0|]. right. exists r, k. auto.
Qed.

Lemma loaded_contours (pd0 : PD) (P : plistlib PL) {T} (files : path -> option T) (parse : T -> option element) r k c :
  to_component rust_num pd0 P files parse r = Ok k -> In c (own_contours k) ->
  exists root ce, document_of files parse r root /\ In ce (contours_in root) /\ read_from_element rust_num ce c.
Proof.
  intros H Hc. unfold to_component in H. destruct (c_filename r) as [fn|] eqn:E1; [|discriminate]. cbn [ok_or bind] in H.
  destruct (files fn) as [txt|] eqn:E2; [|discriminate]. cbn [ok_or bind] in H. destruct (parse txt) as [root|] eqn:E3; [|discriminate]. cbn [ok_or bind] in H.
  destruct (read_element rust_num pd0 P pedantry_default root) as [new| |] eqn:E4; try discriminate. cbn [bind] in H. injection H as <-.
  destruct (contours_read rust_num pd0 P _ root new E4) as [A _]. destruct (A c Hc) as (ce & X & Y). exists root, ce. split; [|split; assumption]. exists fn, txt. auto.
Qed.
End Flat.
