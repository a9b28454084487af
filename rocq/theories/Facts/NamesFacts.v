(** Proofs about glyph file names. *)
Require Import Coq.Lists.List Coq.NArith.NArith Coq.Bool.Bool Coq.Strings.String Coq.micromega.Lia Coq.micromega.ZifyBool.
Require Import Verif.Model.Base Verif.Model.Text Verif.Model.Names Verif.Spec.TextSpec.
Import ListNotations.
Local Open Scope N_scope.

Definition enc (c : N) : str := if in_AZ_range c then [c; 95] else [c].
Definition stem (n : str) : str := flat_map enc n.

Lemma fold_push n : forall acc, fold_left push_name_char n acc = acc ++ stem n.
Proof.
  induction n as [|c n IH]; intros acc; cbn [fold_left stem flat_map]; [now rewrite app_nil_r|].
  rewrite IH. unfold push_name_char, enc. destruct (in_AZ_range c); rewrite <- ?app_assoc; reflexivity.
Qed.

Lemma name_to_filename_stem n ext :
  name_to_filename n ext = if ext then stem n ++ lit ".glif" else stem n.
Proof. unfold name_to_filename. rewrite fold_push. reflexivity. Qed.

Lemma in_AZ_spec c : in_AZ_range c = (65 <=? c) && (c <=? 89).
Proof. unfold in_AZ_range. destruct (N.leb_spec 65 c), (N.leb_spec c 89), (N.ltb_spec c 90); cbn; lia. Qed.

Lemma name_of_stem_stem n : name_of_stem (stem n) = n.
Proof.
  induction n as [|c n IH]; [reflexivity|].
  change (stem (c :: n)) with (enc c ++ stem n). unfold enc. rewrite in_AZ_spec.
  destruct ((65 <=? c) && (c <=? 89)) eqn:E; cbn [app name_of_stem]; rewrite E.
  all: now rewrite IH.
Qed.

Lemma stem_inj a b : stem a = stem b -> a = b.
Proof. intros H. rewrite <- (name_of_stem_stem a), H. apply name_of_stem_stem. Qed.

Lemma filename_injective ext a b : name_to_filename a ext = name_to_filename b ext -> a = b.
Proof.
  rewrite !name_to_filename_stem. destruct ext; intros H; [apply app_inv_tail in H|]; now apply stem_inj.
Qed.

Lemma stem_of_filename_spec n : stem_of_filename (stem n ++ lit ".glif") = stem n.
Proof.
  unfold stem_of_filename. rewrite app_length. change (List.length (lit ".glif")) with 5%nat.
  rewrite PeanoNat.Nat.add_sub. rewrite firstn_app, PeanoNat.Nat.sub_diag, firstn_all. cbn. apply app_nil_r.
Qed.

Lemma filename_recovers_name n :
  name_of_stem (name_to_filename n false) = n /\
  name_of_stem (stem_of_filename (name_to_filename n true)) = n.
Proof.
  rewrite !name_to_filename_stem. cbn iota. rewrite stem_of_filename_spec. split; apply name_of_stem_stem.
Qed.

(** Case-insensitive comparison. *)
Definition low (s : str) : str := map lower s.

Lemma low_stem_cons c n :
  low (stem (c :: n)) = lower c :: (if in_AZ_range c then [95] else []) ++ low (stem n).
Proof.
  unfold low, stem. cbn [flat_map]. rewrite map_app. unfold enc.
  destruct (in_AZ_range c); reflexivity.
Qed.

Lemma lower_underscore c : lower c = 95 -> c = 95.
Proof. unfold lower. destruct (N.leb_spec 65 c), (N.leb_spec c 90); cbn; lia. Qed.

Lemma not_AZ_95 : in_AZ_range 95 = false. Proof. reflexivity. Qed.

Lemma no_extra_underscore r1 : forall r2,
  low r1 = low r2 -> 95 :: low (stem r1) <> low (stem r2).
Proof.
  induction r1 as [|c1 r1 IH]; intros [|c2 r2] Hc H; try discriminate.
  rewrite !low_stem_cons in H. injection H as H2 H.
  assert (c2 = 95) as -> by (apply lower_underscore; congruence).
  change (lower c1 :: low r1 = lower 95 :: low r2) in Hc. injection Hc as H1 Hc.
  assert (c1 = 95) as -> by (apply lower_underscore; rewrite H1; reflexivity).
  rewrite not_AZ_95 in H. cbn [app] in H. change (lower 95) with 95 in H.
  exact (IH _ Hc H).
Qed.

Lemma lower_cases c1 c2 :
  lower c1 = lower c2 -> lower_Z c1 <> lower_Z c2 ->
  (in_AZ_range c1 = true /\ in_AZ_range c2 = false) \/ (in_AZ_range c1 = false /\ in_AZ_range c2 = true).
Proof.
  unfold lower, lower_Z. rewrite !in_AZ_spec.
  destruct (N.leb_spec 65 c1), (N.leb_spec c1 90), (N.leb_spec c1 89), (N.eqb_spec c1 90);
  destruct (N.leb_spec 65 c2), (N.leb_spec c2 90), (N.leb_spec c2 89), (N.eqb_spec c2 90);
    cbn; subst; lia.
Qed.

Lemma lower_Z_AZ c1 c2 : lower_Z c1 = lower_Z c2 -> in_AZ_range c1 = in_AZ_range c2.
Proof.
  unfold lower_Z. rewrite !in_AZ_spec. destruct (N.eqb_spec c1 90), (N.eqb_spec c2 90); intros; subst; reflexivity.
Qed.

Lemma stem_collision n1 : forall n2,
  low n1 = low n2 -> low (stem n1) = low (stem n2) -> map lower_Z n1 = map lower_Z n2.
Proof.
  induction n1 as [|c1 n1 IH]; intros [|c2 n2] Hc H; try discriminate; [reflexivity|].
  pose proof Hc as Hc'. cbn [low map] in Hc'. injection Hc' as H12 Hc'. fold (low n1) (low n2) in Hc'.
  rewrite !low_stem_cons in H.
  destruct (N.eq_dec (lower_Z c1) (lower_Z c2)) as [E|E].
  - rewrite (lower_Z_AZ _ _ E) in H. injection H as _ H. apply app_inv_head in H.
    cbn [map]. rewrite E. f_equal. now apply IH.
  - exfalso. destruct (lower_cases _ _ H12 E) as [[A B]|[A B]]; rewrite A, B in H; cbn [app] in H;
      injection H as _ H.
    + exact (no_extra_underscore _ _ Hc' H).
    + exact (no_extra_underscore _ _ (eq_sym Hc') (eq_sym H)).
Qed.

Lemma lower_Z_lower c1 c2 : lower_Z c1 = lower_Z c2 -> lower c1 = lower c2.
Proof.
  unfold lower_Z, lower. destruct (N.eqb_spec c1 90), (N.eqb_spec c2 90); intros; subst; reflexivity.
Qed.

Lemma stem_collision_conv n1 : forall n2,
  map lower_Z n1 = map lower_Z n2 -> low (stem n1) = low (stem n2).
Proof.
  induction n1 as [|c1 n1 IH]; intros [|c2 n2] H; try discriminate; [reflexivity|].
  cbn [map] in H. injection H as H1 H. rewrite !low_stem_cons, (lower_Z_lower _ _ H1), (lower_Z_AZ _ _ H1).
  now rewrite (IH _ H).
Qed.

Lemma filename_case_collision ext a b :
  same_ignoring_case a b ->
  (same_ignoring_case (name_to_filename a ext) (name_to_filename b ext) <-> map lower_Z a = map lower_Z b).
Proof.
  intros Hab. rewrite !name_to_filename_stem. unfold same_ignoring_case in *.
  destruct ext; rewrite ?map_app; split; intros H.
  - apply app_inv_tail in H. now apply stem_collision.
  - f_equal. now apply (stem_collision_conv a b).
  - now apply stem_collision.
  - now apply (stem_collision_conv a b).
Qed.

Lemma map_lower_Z_id a : ~ In 90 a -> map lower_Z a = a.
Proof.
  induction a as [|c a IH]; intros H; [reflexivity|]. cbn [map In] in *.
  rewrite IH by tauto. unfold lower_Z. destruct (N.eqb_spec c 90); [subst; tauto|reflexivity].
Qed.

Lemma filename_case_distinct ext a b :
  a <> b -> same_ignoring_case a b -> ~ In 90 a -> ~ In 90 b ->
  ~ same_ignoring_case (name_to_filename a ext) (name_to_filename b ext).
Proof.
  intros Hne Hab Ha Hb H. apply Hne. apply (filename_case_collision ext a b Hab) in H.
  now rewrite !map_lower_Z_id in H by assumption.
Qed.

Lemma str_eqb_eq a : forall b, str_eqb a b = true <-> a = b.
Proof.
  induction a as [|x a IH]; intros [|y b]; cbn; split; intros H; try discriminate; try reflexivity.
  - apply andb_prop in H as [H1 H2]. apply N.eqb_eq in H1. apply IH in H2. congruence.
  - injection H as -> ->. rewrite N.eqb_refl. cbn. now apply IH.
Qed.
Lemma str_eqb_refl a : str_eqb a a = true. Proof. now apply str_eqb_eq. Qed.
Lemma str_eqb_neq a b : a <> b -> str_eqb a b = false.
Proof. intros H. destruct (str_eqb a b) eqn:E; [apply str_eqb_eq in E; contradiction|reflexivity]. Qed.
Lemma str_eqb_spec a b : reflect (a = b) (str_eqb a b).
Proof. apply iff_reflect. symmetry. apply str_eqb_eq. Qed.
