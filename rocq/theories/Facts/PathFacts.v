(** Proofs about paths. *)
Require Import Coq.Lists.List Coq.NArith.NArith Coq.Bool.Bool Coq.Strings.String Coq.micromega.Lia.
Require Import Verif.Model.Base Verif.Model.Text Verif.Model.Names Verif.Spec.TextSpec Verif.Facts.NamesFacts Verif.Facts.TextFacts.
Import ListNotations.
Local Open Scope N_scope.

Definition special : list str := [lit "/"; lit "."; lit ".."].
Lemma normal_iff c : path_normal c = true <-> ~ In c special.
Proof.
  unfold path_normal, special. cbn [In]. destruct (str_eqb_spec c (lit "/")) as [->|N1]; [split; [discriminate|tauto]|].
  destruct (str_eqb_spec c (lit ".")) as [->|N2]; [split; [discriminate|tauto]|].
  destruct (str_eqb_spec c (lit "..")) as [->|N3]; [split; [discriminate|tauto]|]. cbn [orb negb]. split; [|reflexivity].
  intros _ [H|[H|[H|[]]]]; congruence.
Qed.
Lemma rev_last {A} (p : list A) x l : rev p = x :: l -> p = rev l ++ [x].
Proof. intros E. rewrite <- (rev_involutive p), E. reflexivity. Qed.
Lemma file_name_some p f : path_file_name p = Some f <-> exists dir, p = dir ++ [f] /\ ~ In f special.
Proof.
  unfold path_file_name. split.
  - destruct (rev p) as [|x l] eqn:E; [discriminate|]. destruct (path_normal x) eqn:N; [|discriminate]. intros [= ->].
    exists (rev l). split; [now apply rev_last|now apply normal_iff].
  - intros (dir & -> & N). rewrite rev_app_distr. cbn [rev app]. apply normal_iff in N. now rewrite N.
Qed.
Lemma file_name_none p : path_file_name p = None <-> forall dir f, p = dir ++ [f] -> In f special.
Proof.
  split.
  - intros H dir f ->. destruct (in_dec (list_eq_dec N.eq_dec) f special) as [|N]; [assumption|].
    assert (path_file_name (dir ++ [f]) = Some f) by (apply file_name_some; eauto). congruence.
  - intros H. destruct (path_file_name p) as [f|] eqn:E; [|reflexivity]. apply file_name_some in E as (dir & E & N). now apply H in E.
Qed.
Lemma removelast_snoc {A} (l : list A) x : removelast (l ++ [x]) = l.
Proof. apply removelast_last. Qed.
Lemma parent_snoc dir f : f <> lit "/" -> path_parent (dir ++ [f]) = Some dir.
Proof.
  intros N. unfold path_parent. rewrite rev_app_distr. cbn [rev app]. destruct (str_eqb_spec f (lit "/")); [contradiction|]. now rewrite removelast_snoc.
Qed.

(** Names without separators. *)
Lemma path_of_plain s : ~ In 47 s -> s <> [] -> s <> lit "." -> path_of s = [s].
Proof.
  intros H1 H2 H3. unfold path_of. rewrite split_on_none by assumption. cbn [filter].
  destruct (str_eqb_spec s []) as [|_]; [contradiction|]. destruct (str_eqb_spec s (lit ".")) as [|_]; [contradiction|]. cbn [negb andb].
  destruct s; [contradiction|reflexivity].
Qed.
Lemma push_one d f : f <> lit "/" -> f <> lit "." -> path_push d [f] = d ++ [f].
Proof.
  intros H1 H2. unfold path_push. cbn [path_absolute]. destruct (str_eqb_spec f (lit "/")) as [|_]; [contradiction|].
  destruct (str_eqb_spec f (lit ".")) as [|_]; [contradiction|]. destruct d; reflexivity.
Qed.
Lemma plain_not_root s : ~ In 47 s -> s <> lit "/".
Proof. intros H ->. apply H. now left. Qed.

(** The text of a path starts with a separator. *)
Lemma path_of_absolute s : path_of (47 :: s) = lit "/" :: filter (fun c => negb (str_eqb c []) && negb (str_eqb c (lit "."))) (split_on 47 s).
Proof.
  unfold path_of. cbn [split_on]. rewrite N.eqb_refl. pose proof (split_on_nonempty 47 s). destruct (split_on 47 s) as [|c l]; [congruence|]. reflexivity.
Qed.
Lemma push_absolute d s : path_push d (path_of (47 :: s)) = path_of (47 :: s).
Proof. rewrite path_of_absolute. reflexivity. Qed.

(** File names of glyphs. *)
Lemma stem_slash n : In 47 (stem n) <-> In 47 n.
Proof.
  unfold stem. rewrite in_flat_map. split.
  - intros (c & H1 & H2). unfold enc in H2. destruct (in_AZ_range c); cbn [In] in H2.
    + destruct H2 as [->|[H2|[]]]; [assumption|discriminate].
    + destruct H2 as [->|[]]. assumption.
  - intros H. exists 47. split; [assumption|]. now left.
Qed.
Lemma glif_slash n : In 47 (name_to_filename n true) <-> In 47 n.
Proof.
  rewrite name_to_filename_stem. cbn iota. rewrite in_app_iff, stem_slash. split; [|now left].
  intros [H|H]; [assumption|]. exfalso. cbn in H. repeat destruct H as [H|H]; try discriminate; assumption.
Qed.
Lemma dotglif_normal s : ~ In (s ++ lit ".glif") special.
Proof.
  intros H. assert (5 <= List.length (s ++ lit ".glif"))%nat as L by (rewrite app_length; cbn; lia).
  destruct H as [H|[H|[H|[]]]]; rewrite <- H in L; cbn in L; lia.
Qed.
Lemma glif_normal n : ~ In (name_to_filename n true) special.
Proof. rewrite name_to_filename_stem. apply dotglif_normal. Qed.
Lemma glif_nonempty n : name_to_filename n true <> [].
Proof. rewrite name_to_filename_stem. cbn iota. now destruct (stem n). Qed.
Lemma path_of_glif n : ~ In 47 n -> path_of (name_to_filename n true) = [name_to_filename n true].
Proof.
  intros H. apply path_of_plain; [now rewrite glif_slash|apply glif_nonempty|].
  intros E. apply (glif_normal n). rewrite E. right. now left.
Qed.
Lemma push_glif d n : ~ In 47 n -> path_push d (path_of (name_to_filename n true)) = d ++ [name_to_filename n true].
Proof.
  intros H. rewrite path_of_glif by assumption. pose proof (glif_normal n) as N. cbn [In special] in N. unfold special in N. cbn [In] in N.
  apply push_one; intros E; apply N; rewrite E; tauto.
Qed.
Lemma set_file_name_twice p n f : ~ In 47 n ->
  path_set_file_name (path_set_file_name p (name_to_filename n true)) f = path_set_file_name p f.
Proof.
  intros H. unfold path_set_file_name. rewrite push_glif by assumption.
  set (d := match path_file_name p with Some _ => removelast p | None => p end).
  assert (path_file_name (d ++ [name_to_filename n true]) = Some (name_to_filename n true)) as E
    by (apply file_name_some; exists d; split; [reflexivity|apply glif_normal]).
  change (path_push (match path_file_name (d ++ [name_to_filename n true]) with Some _ => removelast (d ++ [name_to_filename n true]) | None => d ++ [name_to_filename n true] end) (path_of f) = path_push d (path_of f)).
  rewrite E. now rewrite removelast_snoc.
Qed.

(** The last component of a text that ends in ".glif". *)
Lemma split_on_last sep a b : ~ In sep b -> exists l c, split_on sep (a ++ b) = l ++ [c ++ b] /\ ~ In sep c.
Proof.
  intros Hb. induction a as [|x a (l & c & E & Hc)]; cbn [app].
  - exists [], []. rewrite split_on_none by assumption. split; [reflexivity|easy].
  - cbn [split_on]. rewrite E. destruct (N.eqb_spec x sep) as [->|N].
    + exists ([] :: l), c. split; [reflexivity|assumption].
    + destruct l as [|y l]; cbn [app].
      * exists [], (x :: c). split; [reflexivity|]. intros [->|]; [congruence|contradiction].
      * exists ((x :: y) :: l), c. split; [reflexivity|assumption].
Qed.
Lemma path_of_dotglif s : exists l c, path_of (s ++ lit ".glif") = l ++ [c ++ lit ".glif"] /\ ~ In 47 c.
Proof.
  destruct (split_on_last 47 s (lit ".glif")) as (l & c & E & Hc).
  { cbn. intros H. repeat destruct H as [H|H]; try discriminate; assumption. }
  unfold path_of. rewrite E, filter_app. cbn [filter].
  destruct (str_eqb_spec (c ++ lit ".glif") []) as [X|_]; [now destruct c|].
  destruct (str_eqb_spec (c ++ lit ".glif") (lit ".")) as [X|_].
  { exfalso. apply (dotglif_normal c). rewrite X. right. now left. }
  cbn [negb andb]. set (k := filter _ l). destruct l as [|x l]; cbn [app].
  - exists [], c. split; [|assumption]. subst k. cbn [filter app].
    assert (str_eqb (c ++ lit ".glif") (lit ".") = false) as Z.
    { destruct (str_eqb_spec (c ++ lit ".glif") (lit ".")) as [X|_]; [|reflexivity]. exfalso. apply (dotglif_normal c). rewrite X. right. now left. }
    destruct (c ++ lit ".glif") as [|y z] eqn:Ec; [now destruct c|]. rewrite Z. reflexivity.
  - destruct x as [|y x].
    + destruct (l ++ [c ++ lit ".glif"]) as [|z zs] eqn:Ez; [now destruct l|]. exists (lit "/" :: k), c. split; [reflexivity|assumption].
    + destruct (str_eqb (y :: x) (lit ".")); [exists ((y :: x) :: k), c|exists k, c]; (split; [reflexivity|assumption]).
Qed.
Lemma push_last d q x : q <> [] -> path_push d (q ++ [x]) = path_push d q ++ [x].
Proof.
  intros H. destruct q as [|c q]; [congruence|]. unfold path_push. cbn [app path_absolute]. destruct (str_eqb c (lit "/")); [reflexivity|].
  destruct d as [|y d]; [reflexivity|]. destruct (str_eqb c (lit ".")); cbn [app]; f_equal; now rewrite <- app_assoc.
Qed.
Lemma push_snoc d q x : ~ In x special -> exists e, path_push d (q ++ [x]) = e ++ [x].
Proof.
  intros H. destruct q as [|c q]; [|rewrite push_last by discriminate; eauto]. exists d. cbn [app]. apply push_one; intros ->; apply H; cbn; tauto.
Qed.
