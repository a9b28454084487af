(** Property C102: comparing glyphs. *)
Require Import Coq.Strings.String Coq.Lists.List Coq.Arith.Arith Coq.NArith.NArith Coq.ZArith.ZArith Coq.Bool.Bool Coq.Floats.SpecFloat Coq.micromega.Lia.
Require Import Verif.Model.Base Verif.Model.Text Verif.Model.Float Verif.Model.Num Verif.Model.RustNum Verif.Model.Point Verif.Model.Contour
  Verif.Model.Create Verif.Model.Conv Verif.Model.Strings Verif.Model.Names Verif.Model.Pedantry Verif.Model.Color Verif.Model.Xml
  Verif.Model.Parts Verif.Model.Read Verif.Model.Write Verif.Model.Equal
  Verif.Spec.TextSpec Verif.Spec.NumSpec Verif.Spec.ContourSpec Verif.Spec.OutlineSpec Verif.Spec.GlyphSpec Verif.Spec.DocumentSpec
  Verif.Spec.OpenSpec Verif.Spec.EqualSpec Verif.Spec.ZeroSpec Verif.Facts.GlyphFacts Verif.Facts.DocumentFacts Verif.Facts.OpenFacts Verif.Facts.EqualFacts Verif.Facts.AgainFacts Verif.Facts.ZeroFacts
  Verif.Props.PropsOutline Verif.Props.PropsGlyph Verif.Props.PropsDocument Verif.Props.PropsOpen Verif.Props.PropsZero.
Import ListNotations.
Local Open Scope string_scope.
Local Open Scope list_scope.
Local Open Scope nat_scope.

(** C102: two glyphs are equal exactly if they agree field by field; the set of component names is
    compared as a set, everything else in order. *)
Theorem C102_equal_exactly : forall (L : numlib) (PD PL : Type) (pd_eqb : PD -> PD -> bool) (pl_eqb : PL -> PL -> bool)
  (el_eqb : element -> element -> bool) (os_eqb : osstr -> osstr -> bool) (a b : glif PD PL),
  proper_set a -> proper_set b ->
  (glif_eqb L pd_eqb pl_eqb el_eqb os_eqb a b = true <->
   same_glyph (fun i j => iof_eqb L i j = true) (fun x y => pd_eqb x y = true) (fun x y => pl_eqb x y = true)
     (fun x y => el_eqb x y = true) (fun x y => os_eqb x y = true) a b).
Proof. intros. apply glyph_decides; try assumption; intros x y; reflexivity. Qed.
Print Assumptions C102_equal_exactly.

(** C102: the numbers: floats by value without NaN, the zeros being equal; integers as such, an
    integer and a float by value. *)
Theorem C102_numbers_exactly : (forall x y, feq x y = true <-> same_float x y) /\
  (forall i j, iof_eqb rust_num i j = true <-> equal_number i j).
Proof. split; [apply feq_decides|apply number_decides]. Qed.
Print Assumptions C102_numbers_exactly.

(** C102: a glyph equals itself exactly if none of its numbers is NaN; for any comparison of the
    numbers of guidelines and colors by which a number equals itself exactly if it is not NaN (the
    crate is built with `float-cmp`, Cargo.toml L29, and its comparison may be approximate). *)
Theorem C102_reflexive_exactly : forall (L : numlib) (PD PL : Type) (pd_eqb : PD -> PD -> bool) (pl_eqb : PL -> PL -> bool)
  (el_eqb : element -> element -> bool) (os_eqb : osstr -> osstr -> bool) (g : glif PD PL),
  (forall i, iof_eqb L i i = true <-> i <> IFloat S754_nan) ->
  (forall x, pd_eqb x x = true) -> (forall x, pl_eqb x x = true) -> (forall x, el_eqb x x = true) -> (forall x, os_eqb x x = true) ->
  proper_set g ->
  (glif_eqb L pd_eqb pl_eqb el_eqb os_eqb g g = true <-> ~ has_nan g).
Proof.
  intros L PD PL pd_eqb pl_eqb el_eqb os_eqb g Ri Rd Rp Re Ro Hs. rewrite C102_equal_exactly by assumption.
  rewrite same_glyph_self by assumption. unfold has_nan. rewrite !Forall_forall. split.
  - intros [H1 H2] [H|H]; [exact (H1 _ H)|]. specialize (H2 _ H). now apply Ri in H2.
  - intros H. split.
    + intros f Hf. apply same_float_refl. intros ->. tauto.
    + intros i Hi. apply Ri. intros ->. tauto.
Qed.
Print Assumptions C102_reflexive_exactly.

(** C102: being equal does not depend on the order, if it does not for the numbers of guidelines
    and colors. *)
Theorem C102_symmetric : forall (L : numlib) (PD PL : Type) (pd_eqb : PD -> PD -> bool) (pl_eqb : PL -> PL -> bool)
  (el_eqb : element -> element -> bool) (os_eqb : osstr -> osstr -> bool) (a b : glif PD PL),
  (forall i j, iof_eqb L i j = true -> iof_eqb L j i = true) ->
  (forall x y, pd_eqb x y = true -> pd_eqb y x = true) -> (forall x y, pl_eqb x y = true -> pl_eqb y x = true) ->
  (forall x y, el_eqb x y = true -> el_eqb y x = true) -> (forall x y, os_eqb x y = true -> os_eqb y x = true) ->
  proper_set a -> proper_set b ->
  glif_eqb L pd_eqb pl_eqb el_eqb os_eqb a b = true -> glif_eqb L pd_eqb pl_eqb el_eqb os_eqb b a = true.
Proof.
  intros L PD PL pd_eqb pl_eqb el_eqb os_eqb a b Si Sd Sp Se So Ha Hb. rewrite !C102_equal_exactly by assumption.
  apply same_glyph_sym; assumption.
Qed.
Print Assumptions C102_symmetric.
(** The comparison by value meets both conditions. *)
Example C102_comparison_case : (forall i, iof_eqb rust_num i i = true <-> i <> IFloat S754_nan) /\
  (forall i j, iof_eqb rust_num i j = true -> iof_eqb rust_num j i = true).
Proof.
  split.
  - intros i. now rewrite (number_decides i i), equal_number_refl.
  - intros i j H. apply number_decides, equal_number_sym, number_decides, H.
Qed.

(** C102: two glyphs equal to a third are equal, if the integers in them are no larger than 2^24. *)
Theorem C102_transitive : forall (PD PL : Type) (pd_eqb : PD -> PD -> bool) (pl_eqb : PL -> PL -> bool)
  (el_eqb : element -> element -> bool) (os_eqb : osstr -> osstr -> bool) (a b c : glif PD PL),
  (forall x y z, pd_eqb x y = true -> pd_eqb y z = true -> pd_eqb x z = true) ->
  (forall x y z, pl_eqb x y = true -> pl_eqb y z = true -> pl_eqb x z = true) ->
  (forall x y z, el_eqb x y = true -> el_eqb y z = true -> el_eqb x z = true) ->
  (forall x y z, os_eqb x y = true -> os_eqb y z = true -> os_eqb x z = true) ->
  proper_set a -> proper_set b -> proper_set c ->
  Forall small (mixed_numbers a) -> Forall small (mixed_numbers b) -> Forall small (mixed_numbers c) ->
  glif_eqb rust_num pd_eqb pl_eqb el_eqb os_eqb a b = true -> glif_eqb rust_num pd_eqb pl_eqb el_eqb os_eqb b c = true ->
  glif_eqb rust_num pd_eqb pl_eqb el_eqb os_eqb a c = true.
Proof.
  intros PD PL pd_eqb pl_eqb el_eqb os_eqb a b c Td Tp Te To Ha Hb Hc Sa Sb Sc. rewrite !C102_equal_exactly by assumption.
  rewrite Forall_forall in Sa, Sb, Sc.
  set (num := fun i j => iof_eqb rust_num i j = true). set (num' := fun i j => num i j /\ small i /\ small j). intros H1 H2.
  apply (same_glyph_strengthen num' num); [now intros i j _ _ []|].
  apply (same_glyph_strengthen num num') in H1; [|intros i j Hi Hj H; repeat split; auto].
  apply (same_glyph_strengthen num num') in H2; [|intros i j Hi Hj H; repeat split; auto].
  eapply same_glyph_trans; [|assumption|assumption|assumption|assumption|exact H1|exact H2].
  intros i j k (A & B & C) (D & E & F). split; [|now split].
  apply number_decides. apply (equal_number_trans i j k B F); now apply number_decides.
Qed.
Print Assumptions C102_transitive.

Lemma same_float_plus f : same_float f f -> same_float f (plus f).
Proof. now destruct f. Qed.
Lemma handle_plus h : (forall f, In f (match h with At x y => [x; y] | Colocated => [] end) -> same_float f f) -> same_handle h (plus_handle h).
Proof. destruct h as [x y|]; [|reflexivity || (intros _; exact I)]. intros H. split; apply same_float_plus, H; cbn; auto. Qed.
Lemma Forall2_map_self {A B} (f : A -> B) (R : A -> B -> Prop) l : (forall x, In x l -> R x (f x)) -> Forall2 R l (map f l).
Proof. intros H. induction l as [|x l IH]; constructor; [apply H; now left|]. apply IH. intros y Hy. apply H. now right. Qed.
Lemma equal_number_plus i j : equal_number (plus_number i) j -> equal_number i j.
Proof. destruct i as [z|f]; [trivial|]. cbn [plus_number equal_number f32_of_iof]. destruct f as [[]|s| |s m e]; cbn [plus]; trivial. now destruct (f32_of_iof j). Qed.
(** C102: a glyph opened from a document whose contours are written out in full and do not start
    with a curve is equal to what is opened after saving it, if no image has a color and no number
    is NaN. *)
Theorem C102_saved_again : forall (PD PL : Type) (pd0 : PD) (P : plistlib PL) (dbg : bool) (ped : pedantry)
  (pd_eqb : PD -> PD -> bool) (pl_eqb : PL -> PL -> bool) (el_eqb : element -> element -> bool) (os_eqb : osstr -> osstr -> bool)
  (root : element) (g : glif PD PL),
  (forall x, pd_eqb x x = true) -> (forall x, pl_eqb x x = true) -> (forall x, os_eqb x x = true) ->
  read_element rust_num pd0 P ped root = Ok g ->
  (forall ce, In ce (contours_in root) -> complete_contour ce) ->
  (forall p t, In (p :: t) (contours g) -> pptype p <> Curve) ->
  lib_ok P (g_lib g) -> (forall x, g_lib g <> LXml x) -> (forall i, In i (g_images g) -> i_color i = None) ->
  ~ has_nan g ->
  exists e g', glif_xml rust_num P dbg g = Ok e /\ read_element rust_num pd0 P pedantry_default e = Ok g' /\
    glif_eqb rust_num pd_eqb pl_eqb el_eqb os_eqb g g' = true.
Proof.
  intros PD PL pd0 P dbg ped pd_eqb pl_eqb el_eqb os_eqb root g Rd Rp Ro H Hc Hcurve Hl Hx Hi Hn.
  destruct (C118_contours_kept PD PL pd0 P dbg ped root g H Hc Hl) as (e & g' & W & R & K).
  destruct (C118_restored PD PL pd0 P dbg ped root g H) as (e' & g'' & W' & R' & Hr); [|exact Hl|].
  { intros ce Hce. apply complete_plain. now apply Hc. }
  rewrite W in W'. injection W' as <-. rewrite R in R'. injection R' as <-.
  exists e, g'. split; [exact W|]. split; [exact R|].
  assert (contours (plus_zeros g) = map (map plus_point) (contours g)) as Ep by (unfold contours; cbn [plus_zeros g_outline]; now destruct (g_outline g)).
  assert (contours g' = map (map plus_point) (contours g)) as Ec.
  { rewrite Ep in K. clear - K Hcurve. revert K. generalize (contours g'). induction (contours g) as [|c l IH]; intros m K; inversion_clear K as [|? c' ? l' (p & t & E & K1 & _) K2]; [reflexivity|].
    cbn [map]. f_equal.
    - apply K1. destruct c as [|p0 t0]; [discriminate E|]. injection E as <- _. apply (Hcurve p0 t0). now left.
    - apply IH; [|exact K2]. intros q u Hq. apply (Hcurve q u). now right. }
  pose proof R as R0. assert (glyph_ok rust_num P (plus_zeros g)) as Gok.
  { eapply opened_plus; try eassumption. intros ce Hce. apply complete_plain. now apply Hc. }
  apply read_element_says in H, R.
  destruct H as (_ & _ & _ & _ & _ & Ha & Him & Hg & _ & _ & Hf & Hroot & Hu & gcs & o & Hk & _ & Ho).
  destruct R as (_ & _ & _ & _ & _ & Ha' & Him' & Hg' & _ & _ & Hf' & Hroot' & Hu' & gcs' & o' & Hk' & _ & Ho').
  destruct Hr as (Rn & Rw & Ru & Ra & Rg & Rk & Ri & Rt & Rl & _).
  cbn [plus_zeros g_anchors g_guidelines g_components cs_vec g_images g_name g_width g_unicode g_note g_lib] in Rn, Rw, Ru, Ra, Rg, Rk, Ri, Rt, Rl. apply (proj1 (Forall2_map_l _ _ _ _)) in Ra, Rg, Rk, Ri.
  apply C102_equal_exactly; [unfold proper_set; rewrite Hu; constructor|unfold proper_set; rewrite Hu'; constructor|].
  assert (forall f, In f (floats g) -> same_float f f) as Nf by (intros f F; apply same_float_refl; intros ->; apply Hn; now left).
  assert (forall i, In i (mixed_numbers g) -> i <> IFloat S754_nan) as Ni by (intros i F ->; apply Hn; now right).
  assert (forall i j, In i (mixed_numbers g) -> same_number j (plus_number i) -> iof_eqb rust_num i j = true) as Nn.
  { intros i j F E. apply number_decides, equal_number_plus, restored_number; [|exact E]. apply Ni in F. destruct i as [z|[]]; cbn; congruence. }
  assert (forall l m, (forall i, In i l -> In i (mixed_numbers g)) -> Forall2 same_number m (map plus_number l) -> Forall2 (fun i j => iof_eqb rust_num i j = true) l m) as Nl.
  { intros l. induction l as [|i l IH]; intros m F E; inversion_clear E as [|j ? m' ? E1 E2]; constructor; [apply Nn; [apply F; now left|exact E1]|]. apply IH; [|exact E2]. intros k Hk2. apply F. now right. }
  assert (forall A B (Q : A -> B -> Prop) (S : B -> Prop) l m, (forall x y, Q x y -> S y) -> Forall2 Q l m -> Forall S m) as F2.
  { intros A B Q S l m HQ F. induction F; constructor; eauto. }
  assert (Forall (fun a => an_data a = pd0) (g_anchors g)) as Da by (eapply F2; [|exact Ha]; intros x y (_ & _ & _ & E); exact E).
  assert (Forall (fun a => an_data a = pd0) (g_anchors g')) as Da' by (eapply F2; [|exact Ha']; intros x y (_ & _ & _ & E); exact E).
  assert (Forall (fun a => gl_data a = pd0) (g_guidelines g)) as Dg by (eapply F2; [|exact Hg]; intros x y (_ & _ & _ & _ & _ & _ & E); exact E).
  assert (Forall (fun a => gl_data a = pd0) (g_guidelines g')) as Dg' by (eapply F2; [|exact Hg']; intros x y (_ & _ & _ & _ & _ & _ & E); exact E).
  assert (forall os gs ks, outline_says rust_num os gs ks -> Forall (fun k => c_filename k = None) ks) as Dk.
  { intros os gs ks F. destruct os as [|x os]; [destruct F as [_ ->]; constructor|]. destruct F as (all & _ & _ & F).
    eapply F2; [|exact F]. intros y z (_ & _ & _ & E). exact E. }
  pose proof (Dk _ _ _ Hk) as Fk. pose proof (Dk _ _ _ Hk') as Fk'.
  split; [|split; [|split; [|split; [|split]]]].
  - assert (Forall2 (Forall2 (same_point (fun x y => pd_eqb x y = true))) (contours g) (map (map plus_point) (contours g))) as S.
    { apply Forall2_map_self. intros c Hcin. apply Forall2_map_self. intros p Hp.
      assert (forall f, In f (coordinates p) -> same_float f f) as N.
      { intros f F. apply Nf. unfold floats. apply in_or_app. left. apply in_flat_map. exists p. split; [|exact F].
        apply in_concat. eauto. }
      unfold coordinates in N. split; [apply same_float_plus, N; now left|]. split; [apply same_float_plus, N; right; now left|].
      split; [apply handle_plus; intros f F; apply N; apply in_or_app; right; apply in_or_app; left; exact F|].
      split; [apply handle_plus; intros f F; apply N; apply in_or_app; right; apply in_or_app; right; exact F|].
      repeat split. now apply both_refl. }
    assert (Forall2 (fun x => component_restored (plus_component x)) (cs_vec (g_components g)) (cs_vec (g_components g')) ->
            (cs_vec (g_components g) = [] <-> cs_vec (g_components g') = [])) as Ek.
    { intros F. inversion F; split; (reflexivity || discriminate). }
    specialize (Ek Rk). unfold contours in Ec, S.
    destruct o as [|c1 o], (cs_vec (g_components g)) as [|k1 ks]; rewrite Ho in Ec, S |- *;
      destruct o' as [|c1' o'], (cs_vec (g_components g')) as [|k1' ks']; rewrite Ho' in Ec |- *; cbn [both];
      try (exact I); try discriminate Ec; try exact S; try (rewrite Ec; exact S); try (exfalso; destruct Ek as [E1 E2]; (discriminate (E1 eq_refl) || discriminate (E2 eq_refl))).
  - assert (forall a f, In a (g_anchors g) -> In f [an_x a; an_y a] -> same_float f f) as N.
    { intros a f A F. apply Nf. unfold floats. apply in_or_app. right. apply in_or_app. left. apply in_flat_map. eauto. }
    clear - Ra Da Da' N Rd. induction Ra as [|a a' l l' (A & B & C & D) _ IH]; constructor.
    + inversion_clear Da as [|? ? E _]. inversion_clear Da' as [|? ? E' _]. unfold same_anchor. rewrite A, B, C, D, E, E'.
      split; [apply same_float_plus, (N a); cbn; auto|]. split; [apply same_float_plus, (N a); cbn; auto|]. repeat split. apply Rd.
    + inversion_clear Da. inversion_clear Da'. apply IH; auto. intros b f Hb. apply N. now right.
  - split; [congruence|]. split; [|intros s; rewrite Hu, Hu'; tauto].
    assert (forall k i, In k (cs_vec (g_components g)) -> In i (members (c_matrix k)) -> In i (mixed_numbers g)) as N.
    { intros k i A F. unfold mixed_numbers. apply in_or_app. right. apply in_or_app. left. apply in_flat_map. eauto. }
    clear - Rk Fk Fk' N Nl. induction Rk as [|a a' l l' (A & B & C) _ IH]; constructor.
    + inversion_clear Fk as [|? ? E _]. inversion_clear Fk' as [|? ? E' _]. cbn [plus_component c_base c_matrix c_identifier] in A, B, C. split; [congruence|]. split; [congruence|]. split; [|congruence].
      apply Nl; [|rewrite <- members_plus; exact B]. intros i Hin. apply (N a i); [now left|exact Hin].
    + inversion_clear Fk. inversion_clear Fk'. apply IH; auto. intros b f Hb. apply N. now right.
  - assert (forall a f, In a (g_guidelines g) -> In f [gl_x a; gl_y a] -> same_float f f) as N.
    { intros a f A F. apply Nf. unfold floats. apply in_or_app. right. apply in_or_app. right. apply in_flat_map. eauto. }
    assert (forall a i, In a (g_guidelines g) -> In i (gl_angle a :: numbers_of_color (gl_color a)) -> In i (mixed_numbers g)) as N'.
    { intros k i A F. unfold mixed_numbers. apply in_or_app. left. apply in_flat_map. eauto. }
    clear - Rg Dg Dg' N N' Nl Nn Rd. induction Rg as [|a a' l l' (A & B & C & D & E & F) _ IH]; constructor.
    + inversion_clear Dg as [|? ? G _]. inversion_clear Dg' as [|? ? G' _]. unfold same_guideline. rewrite A, B, D, F, G, G'.
      split; [apply (N a); cbn; auto|]. split; [apply (N a); cbn; auto|].
      split; [apply Nn; [apply (N' a); cbn; auto|exact C]|]. split; [reflexivity|]. split; [|split; [reflexivity|apply Rd]].
      assert (forall i, In i (numbers_of_color (gl_color a)) -> In i (mixed_numbers g)) as N2 by (intros i Hin; apply (N' a i); cbn; auto).
      clear - E N2 Nl. cbn [plus_guideline gl_color] in E. destruct (gl_color a) as [k|], (gl_color a') as [k'|]; try contradiction; [|exact I].
      apply Nl; [exact N2|exact E].
    + inversion_clear Dg. inversion_clear Dg'. apply IH; auto.
      * intros b f Hb. apply N. now right.
      * intros b f Hb. apply N'. now right.
  - assert (forall k i, In k (g_images g) -> In i (members (i_matrix k)) -> In i (mixed_numbers g)) as N.
    { intros k i A F. unfold mixed_numbers. apply in_or_app. right. apply in_or_app. right. apply in_flat_map. exists k. split; [exact A|]. apply in_or_app. now left. }
    assert (forall i, In i (g_images g') -> i_color i = None) as Hi'.
    { destruct (C25_image_color_exact rust_num PD PL pd0 P dbg (plus_zeros g) (proj1 C24_rust_numbers) Gok) as (e2 & g2 & W2 & R2 & _ & F).
      destruct (proj1 (C118_no_difference PD PL pd0 P dbg g) e W) as (e3 & W3 & R3). rewrite W3 in W2. injection W2 as <-. rewrite <- R3, R0 in R2. injection R2 as <-. now apply Forall_forall. }
    clear - Ri Hi Hi' N Nl Ro. induction Ri as [|a a' l l' (A & B & C) _ IH]; constructor.
    + cbn [plus_image i_filename i_matrix i_identifier] in A, B, C. split; [rewrite A; apply Ro|]. split; [|split; [congruence|]].
      * apply Nl; [|rewrite <- members_plus; exact B]. intros i Hin. apply (N a i); [now left|exact Hin].
      * rewrite (Hi a), (Hi' a') by now left. exact I.
    + apply IH; try (intros; apply Hi; now right); try (intros; apply Hi'; now right). intros b f Hb. apply N. now right.
  - repeat split; try congruence. clear - Rl Hx Rp. destruct (g_lib g) as [|d|x], (g_lib g') as [|d'|x']; cbn in *; try contradiction; try exact I.
    + subst. apply Rp.
    + now destruct (Hx x).
Qed.
Print Assumptions C102_saved_again.

(** C102 as stated is false: a glyph that can be opened need not equal itself. *)
Definition nan_doc : element :=
  el "glyph" [("name", "A"); ("format", "2")] [el "anchor" [("x", "NaN"); ("y", "0")] []]%string.
Definition any_eqb {A : Type} (_ _ : A) : bool := true.
Theorem C102_reflexive_refuted : exists g : glif unit unit, read_element rust_num tt no_plist pedantry_default nan_doc = Ok g /\
  glif_eqb rust_num any_eqb any_eqb any_eqb any_eqb g g = false.
Proof. eexists. split; [vm_compute; reflexivity|vm_compute; reflexivity]. Qed.
Print Assumptions C102_reflexive_refuted.

(** An example document: contour, anchor, component, guideline and image. *)
Example C102_case : exists g : glif unit unit, read_element rust_num tt no_plist pedantry_default ex_doc = Ok g /\
  proper_set g /\ ~ has_nan g /\ Forall small (mixed_numbers g) /\ (forall p t, In (p :: t) (contours g) -> pptype p <> Curve) /\
  (forall x, g_lib g <> LXml x) /\ (forall i, In i (g_images g) -> i_color i = None) /\
  length (floats g) = 12 /\ length (mixed_numbers g) = 17 /\ glif_eqb rust_num any_eqb any_eqb any_eqb any_eqb g g = true.
Proof.
  eexists. split; [vm_compute; reflexivity|]. split; [constructor|]. split.
  { intros [H|H]; vm_compute in H; repeat (destruct H as [H|H]; [discriminate H|]); exact H. }
  split; [repeat (apply Forall_cons; [vm_compute; trivial; discriminate|]); apply Forall_nil|].
  split; [intros p t [H|[]]; injection H as <- _; discriminate|].
  split; [discriminate|]. split; [intros i [<-|[]]; reflexivity|].
  split; [vm_compute; reflexivity|]. split; [vm_compute; reflexivity|vm_compute; reflexivity].
Qed.
(** A document with minus zeros. *)
Example C102_signed_case : exists g : glif unit unit, read_element rust_num tt no_plist pedantry_default ex_signed = Ok g /\
  (forall ce, In ce (contours_in ex_signed) -> complete_contour ce) /\ ~ no_minus_zero g /\ ~ has_nan g /\ lib_ok no_plist (g_lib g) /\
  (forall p t, In (p :: t) (contours g) -> pptype p <> Curve) /\ (forall x, g_lib g <> LXml x) /\ (forall i, In i (g_images g) -> i_color i = None).
Proof.
  eexists. split; [vm_compute; reflexivity|]. split; [exact ex_signed_complete|]. split; [intros H; apply H; vm_compute; tauto|]. split.
  { intros [H|H]; vm_compute in H; repeat (destruct H as [H|H]; [discriminate H|]); exact H. }
  split; [exact I|]. split; [intros p t [H|[]]; injection H as <- _; discriminate|]. split; [discriminate|]. intros i [].
Qed.
(** Glyphs that differ in one thing are not equal; zeros are. *)
Example C102_differences : forall g h : glif unit unit,
  read_element rust_num tt no_plist pedantry_default (el "glyph" [("name", "A"); ("format", "2")] [el "anchor" [("x", "-0.0"); ("y", "1")] []]%string) = Ok g ->
  read_element rust_num tt no_plist pedantry_default (el "glyph" [("name", "A"); ("format", "2")] [el "anchor" [("x", "0"); ("y", "1.0")] []]%string) = Ok h ->
  glif_eqb rust_num any_eqb any_eqb any_eqb any_eqb g h = true /\ g <> h.
Proof. intros g h G H. vm_compute in G, H. injection G as <-. injection H as <-. split; [vm_compute; reflexivity|discriminate]. Qed.
