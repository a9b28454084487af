(** Comparing glyphs. *)
Require Import Coq.Lists.List Coq.NArith.NArith Coq.ZArith.ZArith Coq.Bool.Bool Coq.Arith.Arith Coq.Floats.SpecFloat Coq.QArith.QArith Coq.micromega.Lia.
Require Import Verif.Model.Base Verif.Model.Text Verif.Model.Float Verif.Model.Num Verif.Model.RustNum Verif.Model.Point
  Verif.Model.Contour Verif.Model.Names Verif.Model.Color Verif.Model.Xml Verif.Model.Parts Verif.Model.Equal
  Verif.Spec.GlyphSpec Verif.Spec.OpenSpec Verif.Spec.MfekSpec Verif.Spec.AccuracySpec Verif.Spec.RoundSpec Verif.Spec.EqualSpec
  Verif.Facts.NamesFacts Verif.Facts.ArithFacts.
Import ListNotations.
Local Open Scope list_scope.
Local Open Scope nat_scope.

Definition decides {A} (eqb : A -> A -> bool) (R : A -> A -> Prop) : Prop := forall a b, eqb a b = true <-> R a b.

Lemma feq_decides : decides feq same_float.
Proof.
  intros a b. unfold feq, SFeqb, same_float.
  destruct a as [sa|sa| |sa ma ea], b as [sb|sb| |sb mb eb]; cbn; try (split; [discriminate|contradiction]);
    try (destruct sa); try (destruct sb); try (split; [reflexivity|intros _; exact I]);
    try (split; (discriminate || reflexivity || intros H; discriminate H)); try (split; [reflexivity|reflexivity]).
  - destruct (Z.compare_spec ea eb) as [->|H|H].
    + rewrite Pos.compare_cont_spec. destruct (Pos.compare_spec ma mb) as [->|H|H]; cbn; (split; [try discriminate; reflexivity|]).
      * reflexivity.
      * intros E; injection E as E; subst; now apply Pos.lt_irrefl in H.
      * intros E; injection E as E; subst; now apply Pos.lt_irrefl in H.
    + split; [discriminate|]. intros E; injection E as _ E; subst. now apply Z.lt_irrefl in H.
    + split; [discriminate|]. intros E; injection E as _ E; subst. now apply Z.lt_irrefl in H.
  - destruct (Z.compare_spec ea eb) as [->|H|H].
    + rewrite Pos.compare_cont_spec. destruct (Pos.compare_spec ma mb) as [->|H|H]; cbn; (split; [try discriminate; reflexivity|]).
      * reflexivity.
      * intros E; injection E as E; subst; now apply Pos.lt_irrefl in H.
      * intros E; injection E as E; subst; now apply Pos.lt_irrefl in H.
    + split; [discriminate|]. intros E; injection E as _ E; subst. now apply Z.lt_irrefl in H.
    + split; [discriminate|]. intros E; injection E as _ E; subst. now apply Z.lt_irrefl in H.
Qed.
Lemma opt_decides {A} (eqb : A -> A -> bool) R : decides eqb R -> decides (opt_eqb eqb) (both R).
Proof. intros H [a|] [b|]; cbn; [apply H|split; [discriminate|contradiction]|split; [discriminate|contradiction]|tauto]. Qed.
Lemma list_decides {A} (eqb : A -> A -> bool) R : decides eqb R -> decides (list_eqb eqb) (Forall2 R).
Proof.
  intros H. intros a; induction a as [|x a IH]; intros [|y b]; cbn [list_eqb].
  - split; [constructor|reflexivity].
  - split; [discriminate|inversion 1].
  - split; [discriminate|inversion 1].
  - rewrite andb_true_iff, (H x y), (IH b). split; [intros []; now constructor|inversion 1; now split].
Qed.
Lemma Forall2_eq_iff {A} (a b : list A) : Forall2 eq a b <-> a = b.
Proof.
  split; [induction 1; congruence|]. intros <-. induction a; constructor; auto.
Qed.
Lemma both_eq_iff {A} (a b : option A) : both eq a b <-> a = b.
Proof. destruct a, b; cbn; split; (congruence || contradiction || discriminate || tauto). Qed.
Lemma str_decides : decides str_eqb eq. Proof. intros a b. apply str_eqb_eq. Qed.
Lemma opt_str_decides : decides (opt_eqb str_eqb) eq.
Proof. intros a b. rewrite (opt_decides _ _ str_decides a b). apply both_eq_iff. Qed.
Lemma path_decides : decides (opt_eqb (list_eqb str_eqb)) eq.
Proof.
  assert (decides (list_eqb str_eqb) eq) as H by (intros x y; rewrite (list_decides _ _ str_decides x y); apply Forall2_eq_iff).
  intros a b. rewrite (opt_decides _ _ H a b). apply both_eq_iff.
Qed.
Lemma ptype_decides : decides ptype_eqb eq.
Proof. intros [] []; cbn; split; (discriminate || reflexivity). Qed.
Lemma bool_decides : decides Bool.eqb eq. Proof. intros a b. apply Bool.eqb_true_iff. Qed.
Lemma atype_decides : decides anchor_type_eqb eq.
Proof. intros [] []; cbn; split; (discriminate || reflexivity). Qed.
Lemma N_decides : decides N.eqb eq. Proof. intros a b. apply N.eqb_eq. Qed.
Lemma handle_decides : decides handle_eqb same_handle.
Proof.
  intros [x y|] [x' y'|]; cbn; [|split; [discriminate|contradiction]|split; [discriminate|contradiction]|tauto].
  now rewrite andb_true_iff, (feq_decides x x'), (feq_decides y y').
Qed.
Lemma set_decides a b : NoDup a -> NoDup b -> (set_eqb a b = true <-> forall s, In s a <-> In s b).
Proof.
  intros Ha Hb. unfold set_eqb. rewrite andb_true_iff, Nat.eqb_eq, forallb_forall.
  assert ((forall x, In x a -> existsb (str_eqb x) b = true) <-> incl a b) as ->.
  { unfold incl. split; intros H x Hx; specialize (H x Hx).
    - apply existsb_exists in H as (y & Hy & E). apply str_eqb_eq in E. now subst.
    - apply existsb_exists. exists x. split; [exact H|apply str_eqb_refl]. }
  split.
  - intros [E H] s. split; [apply H|]. apply (NoDup_length_incl Ha); [lia|exact H].
  - intros H. assert (incl a b) as I1 by (intros s; apply H). assert (incl b a) as I2 by (intros s; apply H).
    split; [|exact I1]. apply Nat.le_antisymm; now apply NoDup_incl_length.
Qed.

Section Decides.
Context (L : numlib) {PD PL : Type} (pd_eqb : PD -> PD -> bool) (pl_eqb : PL -> PL -> bool)
        (el_eqb : element -> element -> bool) (os_eqb : osstr -> osstr -> bool).
Context (num : iof -> iof -> Prop) (data : PD -> PD -> Prop) (pl : PL -> PL -> Prop)
        (el : element -> element -> Prop) (os : osstr -> osstr -> Prop).
Context (Hnum : decides (iof_eqb L) num) (Hpd : decides pd_eqb data) (Hpl : decides pl_eqb pl) (Hel : decides el_eqb el) (Hos : decides os_eqb os).

Lemma point_decides : decides (point_eqb pd_eqb) (same_point data).
Proof.
  intros p q. unfold point_eqb, same_point. rewrite !andb_true_iff.
  rewrite (feq_decides (px p)), (feq_decides (py p)), (handle_decides (pa p)), (handle_decides (pb p)), (opt_str_decides (pname p)),
    (ptype_decides (pptype p)), (bool_decides (psmooth p)), (opt_decides _ _ Hpd (pdata p)). tauto.
Qed.
Lemma anchor_decides : decides (anchor_eqb pd_eqb) (same_anchor data).
Proof.
  intros p q. unfold anchor_eqb, same_anchor. rewrite !andb_true_iff.
  rewrite (feq_decides (an_x p)), (feq_decides (an_y p)), (opt_str_decides (an_class p)), (Hpd (an_data p)), (atype_decides (an_type p)). tauto.
Qed.
Lemma color_decides : decides (color_eqb L) (equal_color num).
Proof.
  intros p q. unfold color_eqb, equal_color, color_members. rewrite !andb_true_iff.
  rewrite (Hnum (cr p)), (Hnum (cg p)), (Hnum (cb p)), (Hnum (ca p)). split.
  - intros [[[]]]. repeat (apply Forall2_cons; [assumption|]). apply Forall2_nil.
  - intros H. repeat match goal with H : Forall2 _ (_ :: _) _ |- _ => inversion_clear H end. tauto.
Qed.
Lemma matrix_decides : decides (matrix_eqb L) (equal_matrix num).
Proof.
  intros p q. unfold matrix_eqb, equal_matrix, members. rewrite !andb_true_iff.
  rewrite (Hnum (m_xScale p)), (Hnum (m_xyScale p)), (Hnum (m_yxScale p)), (Hnum (m_yScale p)), (Hnum (m_xOffset p)), (Hnum (m_yOffset p)). split.
  - intros [[[[[]]]]]. repeat (apply Forall2_cons; [assumption|]). apply Forall2_nil.
  - intros H. repeat match goal with H : Forall2 _ (_ :: _) _ |- _ => inversion_clear H end. tauto.
Qed.
Lemma guideline_decides : decides (guideline_eqb L pd_eqb) (same_guideline num data).
Proof.
  intros p q. unfold guideline_eqb, same_guideline. rewrite !andb_true_iff.
  rewrite (feq_decides (gl_x p)), (feq_decides (gl_y p)), (Hnum (gl_angle p)), (opt_str_decides (gl_name p)),
    (opt_decides _ _ color_decides (gl_color p)), (opt_str_decides (gl_identifier p)), (Hpd (gl_data p)). tauto.
Qed.
Lemma component_decides : decides (component_eqb L) (same_component num).
Proof.
  intros p q. unfold component_eqb, same_component. rewrite !andb_true_iff.
  rewrite (str_decides (c_base p)), (path_decides (c_filename p)), (matrix_decides (c_matrix p)), (opt_str_decides (c_identifier p)). tauto.
Qed.
Lemma image_decides : decides (image_eqb L os_eqb) (same_image num os).
Proof.
  intros p q. unfold image_eqb, same_image. rewrite !andb_true_iff.
  rewrite (Hos (i_filename p)), (matrix_decides (i_matrix p)), (opt_str_decides (i_identifier p)), (opt_decides _ _ color_decides (i_color p)). tauto.
Qed.
Lemma lib_decides : decides (lib_eqb pl_eqb el_eqb) (same_lib pl el).
Proof. intros [|d|e] [|d'|e']; cbn; try (split; [discriminate|contradiction]); [tauto|apply Hpl|apply Hel]. Qed.
Lemma glyph_decides a b : proper_set a -> proper_set b ->
  (glif_eqb L pd_eqb pl_eqb el_eqb os_eqb a b = true <-> same_glyph num data pl el os a b).
Proof.
  intros Sa Sb. unfold glif_eqb, same_glyph, components_eqb. rewrite !andb_true_iff.
  rewrite (opt_decides _ _ (list_decides _ _ (list_decides _ _ point_decides)) (g_outline a)), (list_decides _ _ anchor_decides (g_anchors a)),
    (str_decides (cs_root _)), (list_decides _ _ component_decides (cs_vec _)), (set_decides _ _ Sa Sb),
    (list_decides _ _ guideline_decides (g_guidelines a)), (list_decides _ _ image_decides (g_images a)).
  rewrite (opt_decides _ _ N_decides (g_width a)), both_eq_iff, (list_decides _ _ N_decides (g_unicode a)), Forall2_eq_iff,
    (str_decides (g_name a)), (opt_str_decides (g_note a)), (path_decides (g_filename a)), (lib_decides (g_lib a)). tauto.
Qed.
End Decides.

(** ** Laws *)
Lemma same_float_refl f : same_float f f <-> f <> S754_nan.
Proof. destruct f; cbn; split; (congruence || tauto || intros; reflexivity). Qed.
Lemma same_float_sym f g : same_float f g -> same_float g f.
Proof. destruct f, g; cbn; (congruence || tauto). Qed.
Lemma same_float_trans f g h : same_float f g -> same_float g h -> same_float f h.
Proof. destruct f, g, h; cbn; (congruence || tauto). Qed.
Lemma both_refl {A} (R : A -> A -> Prop) : (forall a, R a a) -> forall o, both R o o.
Proof. intros H [a|]; cbn; auto. Qed.
Lemma both_sym {A} (R : A -> A -> Prop) : (forall a b, R a b -> R b a) -> forall o p, both R o p -> both R p o.
Proof. intros H [a|] [b|]; cbn; auto. Qed.
Lemma both_trans {A} (R : A -> A -> Prop) : (forall a b c, R a b -> R b c -> R a c) -> forall o p q, both R o p -> both R p q -> both R o q.
Proof. intros H [a|] [b|] [c|]; cbn; (tauto || eauto). Qed.
Lemma Forall2_sym {A} (R : A -> A -> Prop) : (forall a b, R a b -> R b a) -> forall l m, Forall2 R l m -> Forall2 R m l.
Proof. intros H l m. induction 1; constructor; auto. Qed.
Lemma Forall2_trans {A} (R : A -> A -> Prop) : (forall a b c, R a b -> R b c -> R a c) -> forall l m n, Forall2 R l m -> Forall2 R m n -> Forall2 R l n.
Proof. intros H l m n H1. revert n. induction H1; inversion 1; subst; constructor; eauto. Qed.
Lemma Forall2_self {A} (R : A -> A -> Prop) l : Forall2 R l l <-> Forall (fun x => R x x) l.
Proof.
  split; [|induction 1; constructor; auto]. induction l as [|x l IH]; [constructor|]. inversion_clear 1. constructor; auto.
Qed.
Lemma same_handle_sym a b : same_handle a b -> same_handle b a.
Proof. destruct a, b; cbn; try tauto. intros [H1 H2]. split; now apply same_float_sym. Qed.
Lemma same_handle_trans a b c : same_handle a b -> same_handle b c -> same_handle a c.
Proof. destruct a, b, c; cbn; try tauto. intros [H1 H2] [H3 H4]. split; eapply same_float_trans; eassumption. Qed.

Section Laws.
Context {PD PL : Type} (num : iof -> iof -> Prop) (data : PD -> PD -> Prop) (pl : PL -> PL -> Prop)
        (el : element -> element -> Prop) (os : osstr -> osstr -> Prop).

Lemma same_glyph_sym :
  (forall a b, num a b -> num b a) -> (forall a b, data a b -> data b a) -> (forall a b, pl a b -> pl b a) ->
  (forall a b, el a b -> el b a) -> (forall a b, os a b -> os b a) ->
  forall a b, same_glyph num data pl el os a b -> same_glyph num data pl el os b a.
Proof.
  intros Sn Sd Sp Se So a b (H1 & H2 & (H3 & H4 & H5) & H6 & H7 & H8 & H9 & H10 & H11 & H12 & H13).
  assert (forall x y, equal_color num x y -> equal_color num y x) as Sc by (intros x y; apply Forall2_sym; exact Sn).
  assert (forall x y, equal_matrix num x y -> equal_matrix num y x) as Sm by (intros x y; apply Forall2_sym; exact Sn).
  split; [|split; [|split; [|split; [|split]]]].
  - revert H1. apply both_sym. intros ? ?. apply Forall2_sym. intros ? ?. apply Forall2_sym.
    intros x y (A & B & C & D & E & F & G & I). repeat split; auto using same_float_sym, same_handle_sym.
    revert I. now apply both_sym.
  - revert H2. apply Forall2_sym. intros x y (A & B & C & D & E). repeat split; auto using same_float_sym.
  - split; [auto|]. split; [|intros s; symmetry; apply H5]. revert H4. apply Forall2_sym. intros x y (A & B & C & D). repeat split; auto.
  - revert H6. apply Forall2_sym. intros x y (A & B & C & D & E & F & G). repeat split; auto using same_float_sym. revert E. now apply both_sym.
  - revert H7. apply Forall2_sym. intros x y (A & B & C & D). repeat split; auto. revert D. now apply both_sym.
  - repeat split; auto. revert H13. destruct (g_lib a), (g_lib b); cbn; auto.
Qed.
Lemma same_glyph_trans :
  (forall a b c, num a b -> num b c -> num a c) -> (forall a b c, data a b -> data b c -> data a c) ->
  (forall a b c, pl a b -> pl b c -> pl a c) -> (forall a b c, el a b -> el b c -> el a c) -> (forall a b c, os a b -> os b c -> os a c) ->
  forall a b c, same_glyph num data pl el os a b -> same_glyph num data pl el os b c -> same_glyph num data pl el os a c.
Proof.
  intros Sn Sd Sp Se So a b c (H1 & H2 & (H3 & H4 & H5) & H6 & H7 & H8 & H9 & H10 & H11 & H12 & H13)
    (G1 & G2 & (G3 & G4 & G5) & G6 & G7 & G8 & G9 & G10 & G11 & G12 & G13).
  assert (forall x y z, equal_color num x y -> equal_color num y z -> equal_color num x z) as Sc by (intros x y z; apply Forall2_trans; exact Sn).
  assert (forall x y z, equal_matrix num x y -> equal_matrix num y z -> equal_matrix num x z) as Sm by (intros x y z; apply Forall2_trans; exact Sn).
  split; [|split; [|split; [|split; [|split]]]].
  - revert H1 G1. apply both_trans. intros ? ? ?. apply Forall2_trans. intros ? ? ?. apply Forall2_trans.
    intros x y z (A & B & C & D & E & F & G & I) (A' & B' & C' & D' & E' & F' & G' & I').
    split; [eapply same_float_trans; eassumption|]. split; [eapply same_float_trans; eassumption|].
    split; [eapply same_handle_trans; eassumption|]. split; [eapply same_handle_trans; eassumption|].
    repeat split; try congruence. revert I I'. now apply both_trans.
  - revert H2 G2. apply Forall2_trans. intros x y z (A & B & C & D & E) (A' & B' & C' & D' & E').
    split; [eapply same_float_trans; eassumption|]. split; [eapply same_float_trans; eassumption|]. repeat split; try congruence. eauto.
  - split; [congruence|]. split; [|intros s; rewrite H5; apply G5]. revert H4 G4. apply Forall2_trans.
    intros x y z (A & B & C & D) (A' & B' & C' & D'). repeat split; try congruence. eauto.
  - revert H6 G6. apply Forall2_trans. intros x y z (A & B & C & D & E & F & G) (A' & B' & C' & D' & E' & F' & G').
    split; [eapply same_float_trans; eassumption|]. split; [eapply same_float_trans; eassumption|].
    repeat split; try congruence; eauto. revert E E'. now apply both_trans.
  - revert H7 G7. apply Forall2_trans. intros x y z (A & B & C & D) (A' & B' & C' & D').
    repeat split; try congruence; eauto. revert D D'. now apply both_trans.
  - repeat split; try congruence. revert H13 G13. destruct (g_lib a), (g_lib b), (g_lib c); cbn; (tauto || eauto).
Qed.

(** A glyph and itself. *)
Lemma numbers_of_color_self o : both (equal_color num) o o <-> Forall (fun i => num i i) (numbers_of_color o).
Proof.
  destruct o as [c|]; cbn [both numbers_of_color]; [|split; [constructor|trivial]].
  unfold equal_color, color_members. apply Forall2_self.
Qed.
Lemma handle_self h : same_handle h h <-> Forall (fun f => same_float f f) (match h with At x y => [x; y] | Colocated => [] end).
Proof.
  destruct h as [x y|]; cbn [same_handle]; [|split; [constructor|trivial]]. rewrite !Forall_cons_iff. split; [intros []; repeat split; auto|tauto].
Qed.
Lemma same_glyph_self : (forall d, data d d) -> (forall d, pl d d) -> (forall d, el d d) -> (forall d, os d d) -> forall g,
  same_glyph num data pl el os g g <-> Forall (fun f => same_float f f) (floats g) /\ Forall (fun i => num i i) (mixed_numbers g).
Proof.
  intros Rd Rp Re Ro g. unfold floats, mixed_numbers. rewrite !Forall_app, !Forall_flat_map, Forall_concat.
  assert (same_lib pl el (g_lib g) (g_lib g)) as Hl by (destruct (g_lib g); cbn; auto).
  assert (forall p, same_point data p p <-> Forall (fun f => same_float f f) (coordinates p)) as Hp.
  { intros p. unfold same_point, coordinates. rewrite !Forall_app, !Forall_cons_iff, <- !handle_self.
    assert (both data (pdata p) (pdata p)) by now apply both_refl. split; [|tauto]. intros (A & B & C & D & _). repeat split; auto. }
  assert (both (Forall2 (Forall2 (same_point data))) (g_outline g) (g_outline g) <->
          Forall (Forall (fun p => Forall (fun f => same_float f f) (coordinates p))) (contours g)) as Hc.
  { unfold contours. destruct (g_outline g) as [o|]; cbn [both]; [|split; [constructor|trivial]].
    rewrite Forall2_self. split; intros H; (eapply Forall_impl; [|exact H]); intros c Hc.
    - apply Forall2_self in Hc. eapply Forall_impl; [|exact Hc]. intros p. apply Hp.
    - apply Forall2_self. eapply Forall_impl; [|exact Hc]. intros p. apply Hp. }
  assert (Forall2 (same_anchor data) (g_anchors g) (g_anchors g) <->
          Forall (fun a => Forall (fun f => same_float f f) [an_x a; an_y a]) (g_anchors g)) as Ha.
  { rewrite Forall2_self. split; intros H; (eapply Forall_impl; [|exact H]); intros a; unfold same_anchor; rewrite !Forall_cons_iff.
    - intros (A & B & _). repeat split; auto.
    - intros (A & B & _). repeat split; auto. }
  assert (Forall2 (same_component num) (cs_vec (g_components g)) (cs_vec (g_components g)) <->
          Forall (fun c => Forall (fun i => num i i) (members (c_matrix c))) (cs_vec (g_components g))) as Hk.
  { rewrite Forall2_self. split; intros H; (eapply Forall_impl; [|exact H]); intros a; unfold same_component, equal_matrix; rewrite Forall2_self; tauto. }
  assert (Forall2 (same_image num os) (g_images g) (g_images g) <->
          Forall (fun i => Forall (fun i => num i i) (members (i_matrix i) ++ numbers_of_color (i_color i))) (g_images g)) as Hi.
  { rewrite Forall2_self. split; intros H; (eapply Forall_impl; [|exact H]); intros a; unfold same_image, equal_matrix;
      rewrite Forall2_self, numbers_of_color_self, Forall_app; [tauto|]. intros []. repeat split; auto. }
  assert (Forall2 (same_guideline num data) (g_guidelines g) (g_guidelines g) <->
          Forall (fun l => Forall (fun f => same_float f f) [gl_x l; gl_y l]) (g_guidelines g) /\
          Forall (fun l => Forall (fun i => num i i) (gl_angle l :: numbers_of_color (gl_color l))) (g_guidelines g)) as Hg.
  { rewrite Forall2_self. split.
    - intros H. split; (eapply Forall_impl; [|exact H]); intros a (A & B & C & _ & D & _).
      + rewrite !Forall_cons_iff. repeat split; auto.
      + apply Forall_cons; [exact C|]. now apply numbers_of_color_self.
    - rewrite !Forall_forall. intros [H H'] a Hin. specialize (H a Hin). specialize (H' a Hin).
      rewrite !Forall_cons_iff in H. rewrite Forall_cons_iff, <- numbers_of_color_self in H'.
      destruct H as (A & B & _), H' as [C D]. repeat split; auto. }
  unfold same_glyph. rewrite Hc, Ha, Hk, Hi, Hg. tauto.
Qed.
End Laws.

(** ** Numbers *)
Lemma number_decides : decides (iof_eqb rust_num) equal_number.
Proof.
  intros [x|f] [y|g]; cbn [rust_num iof_eqb equal_number f32_of_iof]; [apply Z.eqb_eq| | |]; apply feq_decides.
Qed.
Lemma f32_of_Z_not_nan z : f32_of_Z z <> S754_nan.
Proof. intros E. pose proof (int_rounded z) as H. rewrite E in H. exact H. Qed.
Lemma equal_number_refl i : equal_number i i <-> i <> IFloat S754_nan.
Proof.
  destruct i as [z|f]; cbn; [split; [discriminate|reflexivity]|]. rewrite same_float_refl. split; congruence.
Qed.
Lemma equal_number_sym i j : equal_number i j -> equal_number j i.
Proof. destruct i, j; cbn; [congruence| | |]; apply same_float_sym. Qed.
Lemma same_float_value f g : same_float f g -> value f = value g.
Proof. destruct f, g; cbn; (contradiction || congruence || reflexivity). Qed.
Lemma equal_number_trans i j k : small i -> small k -> equal_number i j -> equal_number j k -> equal_number i k.
Proof.
  intros Si Sk. destruct i as [x|f], k as [z|h], j as [y|g]; cbn [equal_number f32_of_iof] in *; intros H1 H2;
    try subst y; try assumption; try (eapply same_float_trans; eassumption).
  pose proof (same_float_value _ _ (same_float_trans _ _ _ H1 H2)) as E.
  destruct (int_float x Si) as [_ (v & V1 & V2)], (int_float z Sk) as [_ (w & W1 & W2)].
  rewrite V1, W1 in E. injection E as E. subst w. rewrite V2 in W2. unfold Qeq in W2. cbn in W2. lia.
Qed.

Lemma Forall2_impl_in {A} (R S : A -> A -> Prop) l m :
  (forall a b, In a l -> In b m -> R a b -> S a b) -> Forall2 R l m -> Forall2 S l m.
Proof.
  intros H F. induction F as [|x y l m Hx _ IH]; constructor.
  - apply H; [now left|now left|exact Hx].
  - apply IH. intros a b Ha Hb. apply H; now right.
Qed.
Section Strengthen.
Context {PD PL : Type} (num num' : iof -> iof -> Prop) (data : PD -> PD -> Prop) (pl : PL -> PL -> Prop)
        (el : element -> element -> Prop) (os : osstr -> osstr -> Prop).
Lemma color_strengthen o o' : (forall i j, In i (numbers_of_color o) -> In j (numbers_of_color o') -> num i j -> num' i j) ->
  both (equal_color num) o o' -> both (equal_color num') o o'.
Proof. destruct o, o'; cbn [both numbers_of_color]; trivial. intros H. now apply Forall2_impl_in. Qed.
Lemma same_glyph_strengthen a b :
  (forall i j, In i (mixed_numbers a) -> In j (mixed_numbers b) -> num i j -> num' i j) ->
  same_glyph num data pl el os a b -> same_glyph num' data pl el os a b.
Proof.
  intros H (H1 & H2 & (H3 & H4 & H5) & H6 & H7 & H8).
  assert (forall (g : glif PD PL) l i, In l (g_guidelines g) -> In i (gl_angle l :: numbers_of_color (gl_color l)) -> In i (mixed_numbers g)) as Ig.
  { intros g l i Hl Hi. unfold mixed_numbers. apply in_or_app. left. apply in_flat_map. eauto. }
  assert (forall (g : glif PD PL) c i, In c (cs_vec (g_components g)) -> In i (members (c_matrix c)) -> In i (mixed_numbers g)) as Ic.
  { intros g l i Hl Hi. unfold mixed_numbers. apply in_or_app. right. apply in_or_app. left. apply in_flat_map. eauto. }
  assert (forall (g : glif PD PL) c i, In c (g_images g) -> In i (members (i_matrix c) ++ numbers_of_color (i_color c)) -> In i (mixed_numbers g)) as Ii.
  { intros g l i Hl Hi. unfold mixed_numbers. apply in_or_app. right. apply in_or_app. right. apply in_flat_map. eauto. }
  split; [exact H1|]. split; [exact H2|]. split; [split; [exact H3|split; [|exact H5]]|split; [|split; [|exact H8]]].
  - revert H4. apply Forall2_impl_in. intros x y Hx Hy (A & B & C & D). split; [exact A|]. split; [exact B|]. split; [|exact D].
    revert C. apply Forall2_impl_in. intros i j Hi Hj. apply H; eauto.
  - revert H6. apply Forall2_impl_in. intros x y Hx Hy (A & B & C & D & E & F). split; [exact A|]. split; [exact B|].
    split; [|split; [exact D|split; [|exact F]]].
    + revert C. apply H; [apply (Ig _ x)|apply (Ig _ y)]; auto using in_eq.
    + revert E. apply color_strengthen. intros i j Hi Hj. apply H; [apply (Ig _ x)|apply (Ig _ y)]; auto using in_cons.
  - revert H7. apply Forall2_impl_in. intros x y Hx Hy (A & B & C & D). split; [exact A|]. split; [|split; [exact C|]].
    + revert B. apply Forall2_impl_in. intros i j Hi Hj. apply H; [apply (Ii _ x)|apply (Ii _ y)]; auto using in_or_app.
    + revert D. apply color_strengthen. intros i j Hi Hj. apply H; [apply (Ii _ x)|apply (Ii _ y)]; auto using in_or_app.
Qed.
End Strengthen.

(** ** After saving and opening *)
Lemma restored_number i j : i <> IFloat S754_nan -> same_number j i -> equal_number i j.
Proof.
  intros N H. destruct i as [x|f], j as [y|g]; cbn [same_number equal_number f32_of_iof] in *; [congruence| | |]; rewrite H; apply same_float_refl;
    (apply f32_of_Z_not_nan || congruence).
Qed.
