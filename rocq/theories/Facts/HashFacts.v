(** Hashing. *)
Require Import Coq.Lists.List Coq.NArith.NArith Coq.ZArith.ZArith Coq.Bool.Bool.
Require Import Verif.Model.Base Verif.Model.Text Verif.Model.Num Verif.Model.Point Verif.Model.Contour Verif.Model.Names Verif.Model.Color
  Verif.Model.Parts Verif.Model.Mfek Verif.Model.Serde Verif.Model.Equal Verif.Model.Hash Verif.Spec.GlyphSpec Verif.Spec.EqualSpec Verif.Spec.HashSpec
  Verif.Facts.EqualFacts.
Import ListNotations.

Lemma tells_bool : tells hash_bool eq.
Proof. intros [] [] r r'; cbn; split; (intros [= E]; now subst) || (intros [D E]; now subst) || (intros [D _]; discriminate D) || discriminate. Qed.
Lemma tells_str : tells hash_str eq.
Proof.
  intros a b r r'. unfold hash_str. rewrite <- !app_assoc. cbn [app]. split; [|now intros [-> ->]].
  revert b. induction a as [|x a IH]; intros [|y b]; cbn [map app]; try discriminate.
  - now intros [= ->].
  - intros [= -> E]. now destruct (IH b E) as [-> ->].
Qed.
Lemma tells_opt {A} (h : A -> list word) R : tells h R -> tells (hash_opt h) (both R).
Proof.
  intros H [a|] [b|] r r'; cbn; try (split; [discriminate|now intros []]).
  - rewrite <- (H a b r r'). split; [now intros [= E]|congruence].
  - split; [intros [= ->]; auto|now intros [_ ->]].
Qed.
Lemma tells_vec {A} (h : A -> list word) R : tells h R -> tells (hash_vec h) (Forall2 R).
Proof.
  intros H. intros a b r r'. unfold hash_vec. cbn [app].
  assert (forall a b, length a = length b -> flat_map h a ++ r = flat_map h b ++ r' <-> Forall2 R a b /\ r = r') as G.
  { clear a b. induction a as [|x a IH]; intros [|y b] E; try discriminate; cbn [flat_map app].
    - split; [now split|now intros [_ ->]].
    - rewrite <- !app_assoc, (H x y), IH by now injection E. split; [intros (A1 & A2 & ->); now split; [constructor|]|].
      intros [F ->]. inversion F; subst; auto. }
  split.
  - intros [= E F]. now apply G.
  - intros [F ->]. assert (length a = length b) as E by (clear G; induction F; cbn; congruence). rewrite E. f_equal. now apply G.
Qed.
Lemma tells_ext {A} (h : A -> list word) (R R' : A -> A -> Prop) : (forall a b, R a b <-> R' a b) -> tells h R -> tells h R'.
Proof. intros E H a b r r'. now rewrite <- E. Qed.
Lemma tells_opt_str : tells (hash_opt hash_str) eq.
Proof. apply (tells_ext _ (both eq)); [intros; apply both_eq_iff|apply tells_opt, tells_str]. Qed.
Ltac tags := intros [] [] r r'; cbn; split; (intros [= E]; now subst) || (intros [D E]; now subst) || (intros [D _]; discriminate D) || discriminate.
Lemma tells_ptype : tells hash_ptype eq. Proof. tags. Qed.
Lemma tells_which : tells hash_which eq. Proof. tags. Qed.
Lemma tells_end : tells hash_end eq. Proof. tags. Qed.
Lemma tells_inner_type : tells hash_inner_type eq. Proof. tags. Qed.

Section Tells.
Context (num_hash : iof -> list word) (path_hash : path -> list word) (num : iof -> iof -> Prop).
Context (Hn : tells num_hash num) (Hp : tells path_hash eq).

Lemma tells_glifpoint : tells (hash_glifpoint num_hash) (same_glifpoint num).
Proof.
  intros p q r r'. unfold hash_glifpoint, same_glifpoint. rewrite <- !app_assoc.
  rewrite (Hn (gx p)), (Hn (gy p)), (tells_bool (gsmooth p)), (tells_opt_str (gname p)), (tells_ptype (gptype p)). tauto.
Qed.
Lemma tells_component : tells (hash_component num_hash path_hash) (same_component num).
Proof.
  intros p q r r'. unfold hash_component, same_component, equal_matrix, members. rewrite <- !app_assoc.
  rewrite (tells_str (c_base p)), (tells_opt _ _ Hp (c_filename p)), !(Hn (_ (c_matrix p))), (tells_opt_str (c_identifier p)), both_eq_iff. split.
  - intros (A & B & H1 & H2 & H3 & H4 & H5 & H6 & C & D). split; [|exact D]. split; [exact A|]. split; [exact B|]. split; [|exact C].
    repeat (apply Forall2_cons; [assumption|]). apply Forall2_nil.
  - intros [(A & B & H & C) D]. repeat match goal with H : Forall2 _ (_ :: _) _ |- _ => inversion_clear H end. tauto.
Qed.
Lemma tells_glifoutline : tells (hash_glifoutline num_hash path_hash) (same_glifoutline num).
Proof.
  intros a b r r'. unfold hash_glifoutline, same_glifoutline. rewrite <- !app_assoc.
  rewrite (tells_vec _ _ (tells_vec _ _ tells_glifpoint) (go_contours a)), (tells_vec _ _ tells_component (go_components a)). tauto.
Qed.
End Tells.

Section Decides.
Context (L : numlib) (num : iof -> iof -> Prop) (Hnum : decides (iof_eqb L) num).
Lemma glifpoint_decides : decides (glifpoint_eqb L) (same_glifpoint num).
Proof.
  intros p q. unfold glifpoint_eqb, same_glifpoint. rewrite !andb_true_iff.
  rewrite (Hnum (gx p)), (Hnum (gy p)), (bool_decides (gsmooth p)), (opt_str_decides (gname p)), (ptype_decides (gptype p)). tauto.
Qed.
Lemma glifoutline_decides : decides (glifoutline_eqb L) (same_glifoutline num).
Proof.
  intros a b. unfold glifoutline_eqb, same_glifoutline. rewrite !andb_true_iff.
  rewrite (list_decides _ _ (list_decides _ _ glifpoint_decides) (go_contours a)), (list_decides _ _ (component_decides L num Hnum) (go_components a)). tauto.
Qed.
End Decides.

(** Equal values are hashed equally if equal numbers are. *)
Section Equal.
Context (num_hash : iof -> list word) (path_hash : path -> list word) (num : iof -> iof -> Prop).
Context (Hn : forall a b, num a b -> num_hash a = num_hash b).
Lemma vec_same {A} (h : A -> list word) (R : A -> A -> Prop) : (forall a b, R a b -> h a = h b) -> forall l l', Forall2 R l l' -> hash_vec h l = hash_vec h l'.
Proof.
  intros H l l' F. unfold hash_vec. assert (length l = length l') as -> by (induction F; cbn; congruence). f_equal.
  induction F as [|x y l l' E _ IH]; [reflexivity|]. cbn. now rewrite (H x y E), IH.
Qed.
Lemma glifpoint_same p q : same_glifpoint num p q -> hash_glifpoint num_hash p = hash_glifpoint num_hash q.
Proof. intros (A & B & C & D & E). unfold hash_glifpoint. now rewrite (Hn _ _ A), (Hn _ _ B), C, D, E. Qed.
Lemma component_same p q : same_component num p q -> hash_component num_hash path_hash p = hash_component num_hash path_hash q.
Proof.
  intros (A & B & C & D). unfold hash_component. rewrite A, B, D. unfold equal_matrix, members in C.
  repeat match goal with H : Forall2 _ (_ :: _) _ |- _ => inversion_clear H end.
  repeat match goal with H : num _ _ |- _ => rewrite (Hn _ _ H); clear H end. reflexivity.
Qed.
Lemma glifoutline_same a b : same_glifoutline num a b -> hash_glifoutline num_hash path_hash a = hash_glifoutline num_hash path_hash b.
Proof.
  intros [A B]. unfold hash_glifoutline. rewrite (vec_same _ _ (vec_same _ _ glifpoint_same) _ _ A), (vec_same _ _ component_same _ _ B). reflexivity.
Qed.
End Equal.
