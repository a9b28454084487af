(** Neighbours, smoothness, reversal. *)
Require Import Coq.Lists.List Coq.Arith.Arith Coq.Bool.Bool Coq.micromega.Lia Coq.Sorting.Permutation.
Require Import Verif.Model.Base Verif.Model.Float Verif.Model.Num Verif.Model.Point Verif.Model.Contour
  Verif.Model.Reverse Verif.Spec.ContourSpec.
Import ListNotations.

Lemma idx_ok {A} (l : list A) i : i < length l -> exists x, nth_error l i = Some x /\ idx l i = Ok x.
Proof.
  intros H. unfold idx. destruct (nth_error l i) eqn:E; [eauto|]. apply nth_error_None in E. lia.
Qed.
Lemma idx_nth {A} (l : list A) i x : idx l i = Ok x <-> nth_error l i = Some x.
Proof. unfold idx. destruct (nth_error l i); split; congruence. Qed.

Lemma nth_error_ext {A} (l1 : list A) : forall l2, (forall i, nth_error l1 i = nth_error l2 i) -> l1 = l2.
Proof.
  induction l1 as [|x l1 IH]; intros [|y l2] H; [reflexivity| | |].
  - specialize (H 0). discriminate.
  - specialize (H 0). discriminate.
  - pose proof (H 0) as H0. cbn in H0. injection H0 as ->. f_equal. apply IH. intros i. exact (H (S i)).
Qed.

Lemma set_nth_length {A} (l : list A) i x : length (set_nth l i x) = length l.
Proof. revert i. induction l as [|y l IH]; intros [|i]; cbn; auto. Qed.
Lemma set_nth_error {A} (l : list A) i x j :
  nth_error (set_nth l i x) j = if j =? i then (if i <? length l then Some x else None) else nth_error l j.
Proof.
  revert i j. induction l as [|y l IH]; intros [|i] [|j]; cbn [set_nth nth_error Nat.eqb length Nat.ltb Nat.leb]; try reflexivity.
  - now destruct (j =? i).
  - now rewrite IH.
Qed.

Section Prev.
Context {T : Type} (v : list T).

Lemma idx_sane_cases i :
  (length v <= i /\ idx_sane v i = Err (EIdxOutOfBounds i (length v))) \/
  (length v = 1 /\ i = 0 /\ idx_sane v i = Err ELenOne) \/
  (2 <= length v /\ i < length v /\ idx_sane v i = Ok tt).
Proof.
  unfold idx_sane. destruct (Nat.leb_spec (length v) i); [left; auto|].
  destruct (Nat.eqb_spec (length v) 1); [right; left; split; [auto|split; [lia|auto]]|].
  destruct (Nat.eqb_spec (length v) 0); [lia|]. right. right. split; [lia|]. split; [lia|auto].
Qed.

Lemma next_of_eq i : 2 <= length v -> i < length v ->
  (if i =? length v - 1 then 0 else i + 1) = next_of (length v) i.
Proof.
  intros. unfold next_of. destruct (Nat.eqb_spec i (length v - 1)).
  - replace (i + 1) with (length v) by lia. symmetry. apply Nat.mod_same. lia.
  - rewrite Nat.mod_small; lia.
Qed.
Lemma prev_of_eq i : 2 <= length v -> i < length v ->
  (if i =? 0 then length v - 1 else i - 1) = prev_of (length v) i.
Proof.
  intros. unfold prev_of. destruct (Nat.eqb_spec i 0).
  - subst. rewrite Nat.mod_small; lia.
  - replace (i + (length v - 1)) with (i - 1 + 1 * length v) by lia.
    rewrite Nat.mod_add by lia. rewrite Nat.mod_small; lia.
Qed.

Lemma prev_next_ok i : 2 <= length v -> i < length v ->
  prev_next v i = Ok (prev_of (length v) i, next_of (length v) i).
Proof.
  intros. unfold prev_next. destruct (idx_sane_cases i) as [[? _]|[[? _]|(_ & _ & ->)]]; try lia.
  cbn [bind]. now rewrite next_of_eq, prev_of_eq by lia.
Qed.

Lemma prev_next_total i :
  (length v <= i -> prev_next v i = Err (EIdxOutOfBounds i (length v))) /\
  (length v = 1 -> i = 0 -> prev_next v i = Err ELenOne) /\
  (2 <= length v -> i < length v -> prev_next v i = Ok (prev_of (length v) i, next_of (length v) i)).
Proof.
  split; [|split].
  - intros H. unfold prev_next. destruct (idx_sane_cases i) as [[_ ->]|[[? [? _]]|(_ & ? & _)]]; try lia. reflexivity.
  - intros H Hi. unfold prev_next. destruct (idx_sane_cases i) as [[? _]|[[_ [_ ->]]|(? & ? & _)]]; try lia. reflexivity.
  - apply prev_next_ok.
Qed.

Lemma neighbours_good n i : 2 <= n -> i < n ->
  prev_of n i < n /\ next_of n i < n /\ prev_of n i <> i /\ next_of n i <> i /\
  next_of n (prev_of n i) = i /\ prev_of n (next_of n i) = i.
Proof.
  intros Hn Hi. unfold prev_of, next_of.
  assert ((i + 1) mod n = if i =? n - 1 then 0 else i + 1) as E1.
  { destruct (Nat.eqb_spec i (n - 1)); [replace (i + 1) with n by lia; apply Nat.mod_same; lia|apply Nat.mod_small; lia]. }
  assert ((i + (n - 1)) mod n = if i =? 0 then n - 1 else i - 1) as E2.
  { destruct (Nat.eqb_spec i 0); [subst; apply Nat.mod_small; lia|].
    replace (i + (n - 1)) with (i - 1 + 1 * n) by lia. rewrite Nat.mod_add by lia. apply Nat.mod_small; lia. }
  rewrite E1, E2.
  destruct (Nat.eqb_spec i (n - 1)), (Nat.eqb_spec i 0); repeat split; try lia.
  - replace (i - 1 + 1) with i by lia. apply Nat.mod_small; lia.
  - replace (0 + (n - 1)) with i by lia. apply Nat.mod_small; lia.
  - replace (n - 1 + 1) with n by lia. rewrite Nat.mod_same; lia.
  - replace (i + 1 + (n - 1)) with (i + 1 * n) by lia. rewrite Nat.mod_add by lia. apply Nat.mod_small; lia.
  - replace (i - 1 + 1) with i by lia. apply Nat.mod_small; lia.
  - replace (i + 1 + (n - 1)) with (i + 1 * n) by lia. rewrite Nat.mod_add by lia. apply Nat.mod_small; lia.
Qed.

Lemma which_end_ok i : 2 <= length v -> i < length v ->
  idx_which_end v i = Ok (if i =? 0 then Some Head else if i =? length v - 1 then Some Tail else None).
Proof.
  intros. unfold idx_which_end. destruct (idx_sane_cases i) as [[? _]|[[? _]|(_ & _ & ->)]]; try lia. reflexivity.
Qed.
Lemma which_end_err i : length v <= i \/ length v = 1 -> exists e, idx_which_end v i = Err e.
Proof.
  intros. unfold idx_which_end. destruct (idx_sane_cases i) as [[_ ->]|[[_ [_ ->]]|(? & ? & _)]]; try lia; cbn; eauto.
Qed.

End Prev.

Section C.
Context {PD : Type}.
Implicit Types c : contour PD.

Lemma ptype_eqb_spec a b : reflect (a = b) (ptype_eqb a b).
Proof. destruct a, b; constructor; congruence. Qed.

Lemma is_open_opened c : opened c -> is_open c = true /\ 2 <= length c.
Proof. intros (p & q & t & -> & H). cbn. rewrite H. cbn. split; [reflexivity|lia]. Qed.
Lemma is_open_closed c : closed c -> is_open c = false /\ 2 <= length c.
Proof.
  intros (p & q & t & -> & H). cbn. destruct (ptype_eqb_spec (pptype p) Move); [congruence|].
  split; [reflexivity|lia].
Qed.
Lemma open_or_closed c : 2 <= length c -> opened c \/ closed c.
Proof.
  destruct c as [|p [|q t]]; cbn; intros H; try lia.
  destruct (ptype_eqb_spec (pptype p) Move); [left|right]; repeat eexists; assumption.
Qed.
Lemma is_open_iff c : 2 <= length c -> (is_open c = true <-> opened c) /\ (is_open c = false <-> closed c).
Proof.
  intros H. destruct (open_or_closed c H) as [Ho|Hc].
  - destruct (is_open_opened c Ho) as [E _]. split; split; intros; auto; try congruence.
    destruct (is_open_closed c H0) as [E' _]. congruence.
  - destruct (is_open_closed c Hc) as [E _]. split; split; intros; auto; try congruence.
    destruct (is_open_opened c H0) as [E' _]. congruence.
Qed.

Lemma contour_prev_next_closed c i : closed c -> i < length c ->
  contour_prev_next c i = Ok (Some (prev_of (length c) i), Some (next_of (length c) i)).
Proof.
  intros Hc Hi. destruct (is_open_closed c Hc) as [Ho Hn].
  unfold contour_prev_next. rewrite prev_next_ok by assumption. cbn [bind].
  rewrite Ho. cbn [bind]. unfold prev, next. rewrite prev_next_ok by assumption. reflexivity.
Qed.

Lemma contour_prev_next_open c i : opened c -> i < length c ->
  contour_prev_next c i =
  Ok (if i =? 0 then None else Some (i - 1), if i =? length c - 1 then None else Some (i + 1)).
Proof.
  intros Hc Hi. destruct (is_open_opened c Hc) as [Ho Hn].
  unfold contour_prev_next. rewrite prev_next_ok by assumption. cbn [bind]. rewrite Ho.
  unfold idx_at_start_or_end. rewrite which_end_ok by assumption. cbn [bind].
  rewrite <- prev_of_eq, <- next_of_eq by assumption.
  destruct (Nat.eqb_spec i 0).
  - cbn [bind]. destruct (Nat.eqb_spec i (length c - 1)); [lia|reflexivity].
  - destruct (Nat.eqb_spec i (length c - 1)); cbn [bind]; [reflexivity|].
    unfold prev, next. rewrite prev_next_ok by assumption. cbn [bind fst snd].
    rewrite <- prev_of_eq, <- next_of_eq by assumption.
    destruct (Nat.eqb_spec i 0), (Nat.eqb_spec i (length c - 1)); try lia. reflexivity.
Qed.

Lemma contour_prev_next_err c i : length c <= i \/ length c = 1 ->
  exists e, contour_prev_next c i = Err e.
Proof.
  intros H. unfold contour_prev_next, prev_next.
  destruct (idx_sane_cases c i) as [[_ ->]|[[_ [_ ->]]|(? & ? & _)]]; try lia; cbn; eauto.
Qed.

(** Smoothness. *)
Section Smooth.
Context (dist : f64 -> f64 -> f64 -> f64 -> f64 -> f64 -> f64).

Lemma smooth_inner c i p w :
  2 <= length c -> 0 < i -> i < length c - 1 -> nth_error c i = Some p ->
  is_point_smooth_within dist c i w = Ok (smooth_from dist p (pa p) (pb p) w).
Proof.
  intros Hn H0 H1 Hp. unfold is_point_smooth_within. rewrite which_end_ok by lia. cbn [bind].
  destruct (open_or_closed c Hn) as [Ho|Hc];
    [rewrite contour_prev_next_open by (auto; lia)|rewrite contour_prev_next_closed by (auto; lia)]; cbn [bind];
  rewrite (proj2 (idx_nth c i p) Hp); cbn [bind];
  destruct (Nat.eqb_spec i 0), (Nat.eqb_spec i (length c - 1)); try lia; cbn [bind];
  unfold smooth_from; destruct (pa p), (pb p); reflexivity.
Qed.

Lemma smooth_head c p l w :
  closed c -> nth_error c 0 = Some p -> nth_error c (length c - 1) = Some l ->
  is_point_smooth_within dist c 0 w = Ok (smooth_from dist p (pa p) (pb l) w).
Proof.
  intros Hc Hp Hl. destruct (is_open_closed c Hc) as [_ Hn]. unfold is_point_smooth_within.
  rewrite which_end_ok by lia. cbn [bind]. rewrite contour_prev_next_closed by (auto; lia). cbn [bind fst].
  rewrite (proj2 (idx_nth c 0 p) Hp). cbn [bind Nat.eqb]. rewrite <- prev_of_eq by lia. cbn [Nat.eqb].
  rewrite (proj2 (idx_nth c _ l) Hl). cbn [bind]. unfold smooth_from. destruct (pa p), (pb l); reflexivity.
Qed.

Lemma smooth_tail c p h w :
  closed c -> nth_error c (length c - 1) = Some p -> nth_error c 0 = Some h ->
  is_point_smooth_within dist c (length c - 1) w = Ok (smooth_from dist p (pa h) (pb p) w).
Proof.
  intros Hc Hp Hl. destruct (is_open_closed c Hc) as [_ Hn]. unfold is_point_smooth_within.
  rewrite which_end_ok by lia. cbn [bind]. rewrite contour_prev_next_closed by (auto; lia). cbn [bind snd].
  rewrite (proj2 (idx_nth c _ p) Hp). cbn [bind]. rewrite <- next_of_eq by lia.
  destruct (Nat.eqb_spec (length c - 1) 0); [lia|]. rewrite Nat.eqb_refl.
  rewrite (proj2 (idx_nth c _ h) Hl). cbn [bind]. unfold smooth_from. destruct (pa h), (pb p); reflexivity.
Qed.

Lemma smooth_open_end c i w : opened c -> i = 0 \/ i = length c - 1 ->
  is_point_smooth_within dist c i w = Ok false.
Proof.
  intros Hc Hi. destruct (is_open_opened c Hc) as [_ Hn]. unfold is_point_smooth_within.
  rewrite which_end_ok by lia. cbn [bind]. rewrite contour_prev_next_open by (auto; lia). cbn [bind fst snd].
  destruct (idx_ok c i) as (x & _ & ->); [lia|]. cbn [bind].
  destruct (Nat.eqb_spec i 0); [reflexivity|]. destruct (Nat.eqb_spec i (length c - 1)); [reflexivity|lia].
Qed.

Lemma smooth_err c i w : length c <= i \/ length c = 1 ->
  exists e, is_point_smooth_within dist c i w = Err e.
Proof. intros H. unfold is_point_smooth_within. destruct (which_end_err c i H) as [e ->]. cbn. eauto. Qed.

Lemma smooth_total c i w :
  (exists b, is_point_smooth_within dist c i w = Ok b) \/ (exists e, is_point_smooth_within dist c i w = Err e).
Proof.
  destruct (le_lt_dec (length c) i) as [H|H]; [right; apply smooth_err; auto|].
  destruct (Nat.eq_dec (length c) 1) as [H1|H1]; [right; apply smooth_err; auto|]. left.
  assert (2 <= length c) as Hn by lia.
  destruct (Nat.eq_dec i 0) as [->|Hi0].
  - destruct (open_or_closed c Hn) as [Ho|Hc]; [eexists; apply smooth_open_end; auto|].
    destruct (idx_ok c 0 H) as (p & Hp & _). destruct (idx_ok c (length c - 1)) as (l & Hl & _); [lia|].
    eexists. eapply smooth_head; eauto.
  - destruct (Nat.eq_dec i (length c - 1)) as [->|Hi1].
    + destruct (open_or_closed c Hn) as [Ho|Hc]; [eexists; apply smooth_open_end; auto|].
      destruct (idx_ok c (length c - 1) H) as (p & Hp & _). destruct (idx_ok c 0) as (l & Hl & _); [lia|].
      eexists. eapply smooth_tail; eauto.
    + destruct (idx_ok c i H) as (p & Hp & _). eexists. apply smooth_inner with (p := p); auto; lia.
Qed.

Lemma smooth_ok_bounds c i w b : is_point_smooth_within dist c i w = Ok b -> 2 <= length c /\ i < length c.
Proof.
  intros H. destruct (le_lt_dec (length c) i) as [Hi|Hi].
  { destruct (smooth_err c i w (or_introl Hi)) as [e E]. congruence. }
  destruct (Nat.eq_dec (length c) 1) as [H1|H1].
  { destruct (smooth_err c i w (or_intror H1)) as [e E]. congruence. }
  lia.
Qed.

Lemma check_smooth_no_panic c i : check_smooth dist c i <> Panic.
Proof.
  unfold check_smooth. destruct (smooth_total c i smooth_tolerance) as [[b E]|[e E]]; rewrite E; cbn [bind]; [|discriminate].
  apply smooth_ok_bounds in E as [_ Hi]. destruct (idx_ok c i Hi) as (x & _ & ->). discriminate.
Qed.

Lemma check_smooth_frame c i c' b : check_smooth dist c i = Ok (c', b) ->
  is_point_smooth_within dist c i smooth_tolerance = Ok b /\
  length c' = length c /\
  (forall j, j <> i -> nth_error c' j = nth_error c j) /\
  exists p p', nth_error c i = Some p /\ nth_error c' i = Some p' /\ same_but_smooth p p' /\ psmooth p' = b.
Proof.
  unfold check_smooth. intros H.
  destruct (is_point_smooth_within dist c i smooth_tolerance) as [b'|e|] eqn:E; cbn [bind] in H; try discriminate.
  pose proof (smooth_ok_bounds _ _ _ _ E) as [_ Hi].
  destruct (idx_ok c i Hi) as (p & Hp & Hx). rewrite Hx in H. cbn [bind] in H. injection H as <- <-.
  split; [reflexivity|]. split; [apply set_nth_length|]. split.
  - intros j Hj. rewrite set_nth_error. destruct (Nat.eqb_spec j i); [congruence|reflexivity].
  - exists p, (with_smooth p b'). rewrite set_nth_error, Nat.eqb_refl.
    destruct (Nat.ltb_spec i (length c)); [|lia]. repeat split; auto.
Qed.
End Smooth.

(** Reversal. *)
Lemma swap_swapped (p : point PD) : swap_handles p = swapped p.
Proof. reflexivity. Qed.
Lemma swapped_twice (p : point PD) : swapped (swapped p) = p.
Proof. now destruct p. Qed.

Lemma to_reversed_closed dbg c p0 rest : c = p0 :: rest -> ~ opened c ->
  to_reversed dbg c = Ok (map swapped (p0 :: rev rest)).
Proof.
  intros -> H. unfold to_reversed.
  assert (ptype_eqb (pptype p0) Move && (1 <? length (p0 :: rest)) = false) as ->; [|reflexivity].
  destruct rest as [|q t]; [now rewrite andb_false_r|].
  destruct (ptype_eqb_spec (pptype p0) Move) as [E|E]; [|reflexivity].
  exfalso. apply H. exists p0, q, t. auto.
Qed.

(** An open contour, as first point, middle, last point. *)
Lemma opened_ends c : opened c -> exists p m l, c = p :: m ++ [l] /\ pptype p = Move.
Proof.
  intros (p & q & t & -> & H). destruct (exists_last (l := q :: t)) as (m & l & E); [discriminate|].
  exists p, m, l. now rewrite E.
Qed.

(** The last handle before the end of [p :: m]. *)
Definition out_before (p : point PD) (m : list (point PD)) : handle := pa (last m p).

Lemma last_map {A B} (f : A -> B) (l : list A) d : last (map f l) (f d) = f (last l d).
Proof. induction l as [|x l IH]; [reflexivity|]. cbn [map last]. destruct l; [reflexivity|]. exact IH. Qed.
Lemma last_cons {A} (x d : A) l : last (x :: l) d = last l x.
Proof. revert x d. induction l as [|y l IH]; intros x d; [reflexivity|]. rewrite (IH y x). change (last (x :: y :: l) d) with (last (y :: l) d). apply IH. Qed.
Lemma last_snoc {A} (l : list A) x d : last (l ++ [x]) d = x.
Proof. induction l as [|y l IH]; [reflexivity|]. cbn [app last]. destruct (l ++ [x]) eqn:E; [now destruct l|]. exact IH. Qed.
Lemma last_rev_hd {A} (l : list A) d : last (rev l) d = hd d l.
Proof. destruct l as [|x l]; [reflexivity|]. cbn [rev hd]. apply last_snoc. Qed.

Lemma idx_app_last {A} (l : list A) x n : n = length l -> idx (l ++ [x]) n = Ok x.
Proof. intros ->. unfold idx. rewrite nth_error_app2 by lia. now rewrite Nat.sub_diag. Qed.
Lemma set_nth_last {A} (l : list A) x y n : n = length l -> set_nth (l ++ [x]) n y = l ++ [y].
Proof. intros ->. induction l as [|z l IH]; [reflexivity|]. cbn. now rewrite IH. Qed.

Definition stray (c : contour PD) : Prop := ~ clean_ends c.

Lemma to_reversed_open dbg (p : point PD) m l : pptype p = Move ->
  to_reversed dbg (p :: m ++ [l]) =
  if dbg && negb (is_colocated (pa l) && is_colocated (pb p)) then Panic
  else Ok (with_ptype (swapped l) Move :: map swapped (rev m) ++
           [with_ptype (swapped p) (kind_of (pb (hd l m)) (pa p))]).
Proof.
  intros Hp. unfold to_reversed. rewrite Hp. cbn [ptype_eqb andb].
  assert (1 <? length (p :: m ++ [l]) = true) as ->.
  { cbn [length]. rewrite app_length. cbn [length]. apply Nat.ltb_lt. lia. }
  assert (map swap_handles (rev (p :: m ++ [l])) = swapped l :: map swapped (rev m) ++ [swapped p]) as ->.
  { cbn [rev]. rewrite rev_app_distr. cbn [rev app map]. rewrite map_app. reflexivity. }
  change (idx (swapped l :: map swapped (rev m) ++ [swapped p]) 0) with (Ok (swapped l)). cbn [bind set_nth].
  set (h := with_ptype (swapped l) Move).
  set (mid := map swapped (rev m)).
  assert (length (swapped l :: mid ++ [swapped p]) = S (S (length mid))) as E.
  { cbn [length]. rewrite app_length. cbn. lia. }
  rewrite E. clear E.
  assert ((3 <=? S (S (length mid))) || (S (S (length mid)) =? 2) = true) as ->.
  { destruct (length mid); reflexivity. }
  replace (S (S (length mid)) - 2) with (length mid) by lia.
  replace (S (S (length mid)) - 1) with (S (length mid)) by lia.
  assert (idx (h :: mid ++ [swapped p]) (length mid) = Ok (last mid h)) as ->.
  { destruct mid as [|x mid' _] using rev_ind; [reflexivity|].
    rewrite app_length. cbn [length]. rewrite Nat.add_1_r. rewrite last_snoc. unfold idx. cbn [nth_error].
    rewrite <- app_assoc. rewrite nth_error_app2 by lia. now rewrite Nat.sub_diag. }
  cbn [bind].
  assert (idx (h :: mid ++ [swapped p]) (S (length mid)) = Ok (swapped p)) as ->.
  { unfold idx. cbn [nth_error]. rewrite nth_error_app2 by lia. now rewrite Nat.sub_diag. }
  cbn [bind set_nth].
  rewrite (set_nth_last mid (swapped p) _ (length mid) eq_refl).
  change (idx (h :: mid ++ [with_ptype (swapped p) (type_of_handles (pa (last mid h)) (pb (swapped p)))]) 0) with (Ok h).
  cbn [bind].
  assert (idx (h :: mid ++ [with_ptype (swapped p) (type_of_handles (pa (last mid h)) (pb (swapped p)))]) (S (length mid))
          = Ok (with_ptype (swapped p) (type_of_handles (pa (last mid h)) (pb (swapped p))))) as ->.
  { unfold idx. cbn [nth_error]. rewrite nth_error_app2 by lia. now rewrite Nat.sub_diag. }
  cbn [bind].
  change (pb h) with (pa l).
  change (pa (with_ptype (swapped p) (type_of_handles (pa (last mid h)) (pb (swapped p))))) with (pb p).
  destruct (dbg && negb (is_colocated (pa l) && is_colocated (pb p))); [reflexivity|].
  change (pb (swapped p)) with (pa p).
  assert (pa (last mid h) = pb (hd l m)) as ->.
  { unfold mid. destruct m as [|x m]; [reflexivity|]. cbn [rev hd]. rewrite map_app. cbn [map]. now rewrite last_snoc. }
  reflexivity.
Qed.

Lemma reverse_closed_twice dbg c : c <> [] -> ~ opened c ->
  exists c', to_reversed dbg c = Ok c' /\ to_reversed dbg c' = Ok c.
Proof.
  intros Hn Ho. destruct c as [|p rest]; [congruence|].
  exists (map swapped (p :: rev rest)). split; [now apply to_reversed_closed|].
  rewrite (to_reversed_closed dbg (map swapped (p :: rev rest)) (swapped p) (map swapped (rev rest)));
    [|reflexivity|].
  - f_equal. cbn [map]. rewrite swapped_twice. f_equal. rewrite <- map_rev, rev_involutive, map_map.
    rewrite (map_ext _ (fun x => x)) by apply swapped_twice. apply map_id.
  - intros (a & b & t & E & Hm). cbn [map] in E. injection E as <- E.
    apply Ho. destruct rest as [|q t']; [discriminate|]. exists p, q, t'. auto.
Qed.

Lemma with_ptype_same (p : point PD) t : with_ptype p t = p <-> t = pptype p.
Proof. destruct p as [x y a b n ty s d]. unfold with_ptype. cbn. split; intros; congruence. Qed.

Lemma reverse_open_twice dbg (p : point PD) m l c' : pptype p = Move ->
  to_reversed dbg (p :: m ++ [l]) = Ok c' ->
  (to_reversed dbg c' = Ok (p :: m ++ [l]) <-> pptype l = kind_of (pa (last m p)) (pb l)).
Proof.
  intros Hp H. rewrite to_reversed_open in H by assumption.
  destruct (dbg && negb (is_colocated (pa l) && is_colocated (pb p))) eqn:D; [discriminate|].
  injection H as <-.
  rewrite (to_reversed_open dbg (with_ptype (swapped l) Move) (map swapped (rev m))
            (with_ptype (swapped p) (kind_of (pb (hd l m)) (pa p)))) by reflexivity.
  change (pa (with_ptype (swapped p) (kind_of (pb (hd l m)) (pa p)))) with (pb p).
  change (pb (with_ptype (swapped l) Move)) with (pa l).
  rewrite (andb_comm (is_colocated (pb p))), D.
  assert (with_ptype (swapped (with_ptype (swapped p) (kind_of (pb (hd l m)) (pa p)))) Move = p) as ->.
  { destruct p. cbn in *. now subst. }
  assert (map swapped (rev (map swapped (rev m))) = m) as ->.
  { rewrite <- map_rev, rev_involutive, map_map. rewrite (map_ext _ (fun x => x)) by apply swapped_twice. apply map_id. }
  assert (pb (hd (with_ptype (swapped p) (kind_of (pb (hd l m)) (pa p))) (map swapped (rev m))) = pa (last m p)) as ->.
  { destruct m as [|x m' _] using rev_ind; [reflexivity|]. rewrite rev_app_distr. cbn [rev app map hd].
    now rewrite last_snoc. }
  change (pa (with_ptype (swapped l) Move)) with (pb l).
  set (k := kind_of (pa (last m p)) (pb l)).
  assert (with_ptype (swapped (with_ptype (swapped l) Move)) k = with_ptype l k) as -> by reflexivity.
  split.
  - intros E. assert (m ++ [with_ptype l k] = m ++ [l]) as E1 by congruence.
    apply app_inv_head in E1. assert (with_ptype l k = l) as E2 by congruence.
    symmetry. now apply with_ptype_same.
  - intros E. do 3 f_equal. f_equal. now apply with_ptype_same.
Qed.

(** Segments of reversed contours. *)
Lemma segs_from_app (p : point PD) l1 q l2 :
  segs_from p (l1 ++ q :: l2) = segs_from p (l1 ++ [q]) ++ segs_from q l2.
Proof. revert p. induction l1 as [|x l1 IH]; intros p; cbn [app segs_from]; [reflexivity|]. now rewrite IH. Qed.

Lemma strokes_rev (q : point PD) : forall l p,
  map stroke (segs_from (swapped q) (map swapped (rev l) ++ [swapped p])) =
  rev (map (fun s => stroke (flip s)) (segs_from p (l ++ [q]))).
Proof.
  induction l as [|x l IH]; intros p; [reflexivity|].
  cbn [rev]. rewrite map_app. cbn [map]. rewrite <- app_assoc. cbn [app].
  rewrite segs_from_app. cbn [segs_from]. rewrite map_app, IH. cbn [map rev app]. reflexivity.
Qed.

(** Strokes do not depend on the types of points. *)
Lemma strokes_untyped : forall (l l' : list (point PD)) p p',
  untyped p = untyped p' -> map untyped l = map untyped l' ->
  map stroke (segs_from p l) = map stroke (segs_from p' l').
Proof.
  induction l as [|x l IH]; intros [|x' l'] p p' Hp Hl; try discriminate; [reflexivity|].
  cbn [map] in Hl.
  assert (untyped x = untyped x') as Hx by congruence. assert (map untyped l = map untyped l') as Hl' by congruence.
  cbn [segs_from map]. rewrite (IH l' x x' Hx Hl'). f_equal.
  unfold untyped in *. unfold stroke, seg_between. cbn. congruence.
Qed.

Lemma reverse_closed_strokes dbg c c' : closed c -> to_reversed dbg c = Ok c' ->
  map stroke (closed_segments c') = rev (map (fun s => stroke (flip s)) (closed_segments c)).
Proof.
  intros (p & q & t & -> & Hp) H.
  rewrite (to_reversed_closed dbg (p :: q :: t) p (q :: t)) in H; [|reflexivity|].
  2:{ intros (p1 & q1 & t1 & E & Hm). congruence. }
  injection H as <-. cbn [map]. unfold closed_segments. rewrite <- strokes_rev. reflexivity.
Qed.

Lemma reverse_open_strokes dbg c c' : opened c -> to_reversed dbg c = Ok c' ->
  map stroke (open_segments c') = rev (map (fun s => stroke (flip s)) (open_segments c)).
Proof.
  intros Ho H. destruct (opened_ends c Ho) as (p & m & l & -> & Hp).
  rewrite to_reversed_open in H by assumption.
  destruct (dbg && _); [discriminate|]. injection H as <-. cbn [open_segments].
  rewrite <- strokes_rev. apply strokes_untyped; [reflexivity|].
  rewrite !map_app. reflexivity.
Qed.

(** Kinds of segments. *)
Lemma seg_ext (s s' : segment) : stroke s = stroke s' -> sg_kind s = sg_kind s' -> s = s'.
Proof. destruct s, s'. unfold stroke. cbn. intros. congruence. Qed.
Lemma segs_ext (l l' : list segment) : map stroke l = map stroke l' -> map sg_kind l = map sg_kind l' -> l = l'.
Proof.
  revert l'. induction l as [|s l IH]; intros [|s' l'] H1 H2; try discriminate; [reflexivity|].
  cbn [map] in *. f_equal; [apply seg_ext; congruence|apply IH; congruence].
Qed.
Lemma kinds_segs (p : point PD) l : map sg_kind (segs_from p l) = map pptype l.
Proof. revert p. induction l as [|q l IH]; intros p; [reflexivity|]. cbn [segs_from map]. now rewrite IH. Qed.

Lemma snoc_cons_const {A} (x : A) l : l ++ [x] = x :: l <-> forall y, In y l -> y = x.
Proof.
  induction l as [|y l IH]; [cbn; split; [tauto|reflexivity]|]. cbn [app]. split.
  - intros H. injection H as -> H. intros z [<-|Hz]; [reflexivity|]. now apply IH.
  - intros H. assert (y = x) as -> by (apply H; now left). f_equal. apply IH. intros z Hz. apply H. now right.
Qed.
(** Shifting by one with the last one repeated. *)
Lemma shift_const {A} (l : list A) : forall x, l ++ [last l x] = x :: l <-> forall y, In y l -> y = x.
Proof.
  induction l as [|y l IH]; intros x; [cbn; split; [tauto|reflexivity]|]. rewrite last_cons. cbn [app]. split.
  - intros H. injection H as -> H. pose proof (proj1 (IH x) H) as H2; clear H; rename H2 into H. intros z [<-|Hz]; [reflexivity|]. now apply H.
  - intros H. assert (y = x) as -> by (apply H; now left). f_equal. apply (IH x). intros z Hz. apply H. now right.
Qed.

Lemma one_kind_const (p : point PD) l x : one_kind (segs_from p (l ++ [x])) <-> forall t, In t (map pptype l) -> t = pptype x.
Proof.
  unfold one_kind. pose proof (kinds_segs p (l ++ [x])) as K. rewrite map_app in K. cbn [map] in K. split.
  - intros H t Ht.
    assert (In t (map sg_kind (segs_from p (l ++ [x])))) as H1 by (rewrite K; apply in_or_app; now left).
    assert (In (pptype x) (map sg_kind (segs_from p (l ++ [x])))) as H2 by (rewrite K; apply in_or_app; right; now left).
    apply in_map_iff in H1 as (s1 & <- & H1). apply in_map_iff in H2 as (s2 & <- & H2). now apply H.
  - intros H.
    assert (forall s, In s (segs_from p (l ++ [x])) -> sg_kind s = pptype x) as Hs.
    { intros s Hs. apply (in_map sg_kind) in Hs. rewrite K in Hs. apply in_app_or in Hs as [Hs|[Hs|[]]]; auto. }
    intros s s' H1 H2. now rewrite (Hs s), (Hs s').
Qed.

Lemma map_rev_flip l : map stroke (rev (map flip l)) = rev (map (fun s => stroke (flip s)) l).
Proof. now rewrite map_rev, map_map. Qed.
Lemma kinds_rev_flip l : map sg_kind (rev (map flip l)) = rev (map sg_kind l).
Proof. now rewrite map_rev, map_map. Qed.

Lemma reverse_closed_segments dbg c c' : closed c -> to_reversed dbg c = Ok c' ->
  (closed_segments c' = rev (map flip (closed_segments c)) <-> one_kind (closed_segments c)).
Proof.
  intros Hc H. pose proof (reverse_closed_strokes dbg c c' Hc H) as HS. destruct Hc as (p & q & t & -> & Hp).
  rewrite (to_reversed_closed dbg (p :: q :: t) p (q :: t)) in H; [|reflexivity|].
  2:{ intros (p1 & q1 & t1 & E & Hm). congruence. }
  injection H as <-. unfold closed_segments in *. cbn [map] in HS |- *.
  change (rev t ++ [q]) with (rev (q :: t)) in *.
  set (T := q :: t) in *.
  assert (map sg_kind (segs_from (swapped p) (map swapped (rev T) ++ [swapped p])) = rev (map pptype T) ++ [pptype p]) as K.
  { rewrite kinds_segs, map_app, map_map. cbn [map]. change (pptype (swapped p)) with (pptype p). f_equal.
    now rewrite map_rev. }
  rewrite one_kind_const. split.
  - intros E. apply (f_equal (map sg_kind)) in E. rewrite K, kinds_rev_flip, kinds_segs, map_app in E.
    cbn [map] in E. rewrite rev_app_distr in E. cbn [rev app] in E.
    pose proof (proj1 (snoc_cons_const _ _) E) as E'; clear E; rename E' into E.
    intros ty Hty. apply E. now apply in_rev in Hty.
  - intros HK. apply segs_ext.
    + rewrite map_rev_flip. exact HS.
    + rewrite K, kinds_rev_flip, kinds_segs, map_app. cbn [map]. rewrite rev_app_distr. cbn [rev app].
      apply snoc_cons_const. intros y Hy. apply HK. now apply in_rev.
Qed.

Lemma kind_of_comm a b : kind_of a b = kind_of b a.
Proof. destruct a, b; reflexivity. Qed.

Lemma reverse_open_segments dbg c c' : opened c -> kinds_agree (open_segments c) -> to_reversed dbg c = Ok c' ->
  (open_segments c' = rev (map flip (open_segments c)) <-> one_kind (open_segments c)).
Proof.
  intros Ho Hk H. pose proof (reverse_open_strokes dbg c c' Ho H) as HS.
  destruct (opened_ends c Ho) as (p & m & l & -> & Hp).
  rewrite to_reversed_open in H by assumption.
  destruct (dbg && _); [discriminate|]. injection H as <-. unfold open_segments in *. cbn [map] in HS |- *.
  assert (kind_of (pb (hd l m)) (pa p) = pptype (hd l m)) as Ek.
  { rewrite kind_of_comm. symmetry. specialize (Hk (seg_between p (hd l m))). apply Hk.
    destruct m as [|x m]; now left. }
  rewrite Ek in *.
  set (T := map pptype m).
  match goal with |- context [segs_from ?a ?b = _] => set (S' := segs_from a b) in * end.
  assert (map sg_kind S' = rev T ++ [last (rev T) (pptype l)]) as K.
  { unfold S'. rewrite kinds_segs, map_app, map_map. cbn [map]. f_equal; [now rewrite map_rev|].
    unfold with_ptype, swapped. cbn. f_equal. rewrite last_rev_hd. unfold T. now destruct m. }
  rewrite one_kind_const. fold T. split.
  - intros E. apply (f_equal (map sg_kind)) in E. rewrite K, kinds_rev_flip, kinds_segs, map_app in E.
    cbn [map] in E. rewrite rev_app_distr in E. cbn [rev app] in E. fold T in E.
    pose proof (proj1 (shift_const _ _) E) as E'; clear E; rename E' into E. intros ty Hty. apply E. now apply in_rev in Hty.
  - intros HK. apply segs_ext.
    + rewrite map_rev_flip. exact HS.
    + rewrite K, kinds_rev_flip, kinds_segs, map_app. cbn [map]. rewrite rev_app_distr. cbn [rev app].
      fold T. apply (shift_const (rev T) (pptype l)). intros y Hy. apply HK. now apply in_rev.
Qed.

(** A reversed contour is closed/open exactly when the original is. *)
Lemma reverse_keeps_closed dbg c c' : closed c -> to_reversed dbg c = Ok c' -> closed c'.
Proof.
  intros (p & q & t & -> & Hp) H.
  rewrite (to_reversed_closed dbg (p :: q :: t) p (q :: t)) in H; [|reflexivity|].
  2:{ intros (p1 & q1 & t1 & E & Hm). congruence. }
  injection H as <-. cbn [map]. destruct (rev (q :: t)) as [|a b] eqn:E.
  - apply (f_equal (@length _)) in E. rewrite rev_length in E. discriminate.
  - exists (swapped p), (swapped a), (map swapped b). split; [|exact Hp]. change (rev t ++ [q]) with (rev (q :: t)). now rewrite E.
Qed.
Lemma reverse_keeps_open dbg c c' : opened c -> to_reversed dbg c = Ok c' -> opened c'.
Proof.
  intros Ho H. destruct (opened_ends c Ho) as (p & m & l & -> & Hp).
  rewrite to_reversed_open in H by assumption. destruct (dbg && _); [discriminate|]. injection H as <-.
  destruct (map swapped (rev m)) as [|x y]; cbn [app];
    [exists (with_ptype (swapped l) Move), (with_ptype (swapped p) (kind_of (pb (hd l m)) (pa p))), []
    |exists (with_ptype (swapped l) Move), x, (y ++ [with_ptype (swapped p) (kind_of (pb (hd l m)) (pa p))])]; auto.
Qed.

(** Points are kept. *)
Lemma reverse_points dbg c c' : to_reversed dbg c = Ok c' ->
  Permutation (map untyped c') (map (fun p => untyped (swapped p)) c) /\
  (~ opened c -> Permutation c' (map swapped c) /\ hd_error c' = option_map swapped (hd_error c)) /\
  (opened c -> hd_error (map untyped c') = hd_error (map (fun p => untyped (swapped p)) (rev c))).
Proof.
  intros H. destruct c as [|p rest]; [discriminate|].
  assert (opened (p :: rest) \/ ~ opened (p :: rest)) as [Ho|Ho].
  { destruct (le_lt_dec 2 (length (p :: rest))) as [Hn|Hn].
    - destruct (open_or_closed _ Hn) as [Ho|Hc]; [now left|right]. intros Ho.
      apply is_open_opened in Ho. apply is_open_closed in Hc. destruct Ho, Hc. congruence.
    - right. intros (a & b & t & E & _). rewrite E in Hn. cbn in Hn. lia. }
  - split; [|split; [tauto|intros _]]; destruct (opened_ends _ Ho) as (p' & m & l & E & Hp); rewrite E in *; clear p rest E;
    rewrite to_reversed_open in H by assumption; destruct (dbg && _); try discriminate; injection H as <-.
    + cbn [map]. rewrite !map_app. cbn [map].
      change (untyped (with_ptype (swapped l) Move)) with (untyped (swapped l)).
      change (untyped (with_ptype (swapped p') (kind_of (pb (hd l m)) (pa p')))) with (untyped (swapped p')).
      rewrite map_map. rewrite map_rev.
      rewrite <- !Permutation_cons_append. rewrite <- Permutation_rev. apply perm_swap.
    + cbn [map hd_error rev]. rewrite rev_app_distr. reflexivity.
  - rewrite (to_reversed_closed dbg (p :: rest) p rest eq_refl Ho) in H. injection H as <-.
    assert (Permutation (map swapped (p :: rev rest)) (map swapped (p :: rest))) as HP.
    { apply Permutation_map. apply perm_skip. symmetry. apply Permutation_rev. }
    split; [|split; [intros _; split; [assumption|reflexivity]|tauto]].
    rewrite <- (map_map swapped untyped). now apply Permutation_map.
Qed.

Lemma is_colocated_iff h : is_colocated h = true <-> h = Colocated.
Proof. destruct h; split; cbn; congruence. Qed.

Lemma reverse_panics dbg c : to_reversed dbg c = Panic <-> c = [] \/ (dbg = true /\ opened c /\ ~ clean_ends c).
Proof.
  destruct c as [|p rest]; [cbn; tauto|].
  assert (opened (p :: rest) \/ ~ opened (p :: rest)) as [Ho|Ho].
  { destruct (le_lt_dec 2 (length (p :: rest))) as [Hn|Hn].
    - destruct (open_or_closed _ Hn) as [Ho|Hc]; [now left|right]. intros Ho.
      apply is_open_opened in Ho. apply is_open_closed in Hc. destruct Ho, Hc. congruence.
    - right. intros (a & b & t & E & _). rewrite E in Hn. cbn in Hn. lia. }
  - pose proof Ho as Ho'. destruct (opened_ends _ Ho) as (p' & m & l & E & Hp). rewrite E in *. clear p rest E.
    rewrite to_reversed_open by assumption.
    assert (clean_ends (p' :: m ++ [l]) <-> is_colocated (pa l) && is_colocated (pb p') = true) as Hc.
    { rewrite andb_true_iff, !is_colocated_iff. unfold clean_ends. split.
      - intros H. specialize (H p' (m ++ [l]) eq_refl). rewrite last_cons, last_snoc in H. tauto.
      - intros H a t E. injection E as <- <-. rewrite last_cons, last_snoc. tauto. }
    rewrite Hc. destruct dbg; cbn [andb].
    + destruct (is_colocated (pa l) && is_colocated (pb p')) eqn:D; cbn [negb]; split; intros H.
      * discriminate.
      * destruct H as [H|(_ & _ & H)]; [discriminate|congruence].
      * right. split; [reflexivity|]. split; [assumption|discriminate].
      * reflexivity.
    + split; [discriminate|]. intros [H|(H & _)]; discriminate.
  - rewrite (to_reversed_closed dbg (p :: rest) p rest eq_refl Ho). split; [discriminate|].
    intros [H|(_ & H & _)]; [discriminate|tauto].
Qed.

(** to_reversed never returns an error. *)
Lemma reverse_no_err dbg c e : to_reversed dbg c <> Err e.
Proof.
  destruct c as [|p rest]; [discriminate|].
  assert (opened (p :: rest) \/ ~ opened (p :: rest)) as [Ho|Ho].
  { destruct (le_lt_dec 2 (length (p :: rest))) as [Hn|Hn].
    - destruct (open_or_closed _ Hn) as [Ho|Hc]; [now left|right]. intros Ho.
      apply is_open_opened in Ho. apply is_open_closed in Hc. destruct Ho, Hc. congruence.
    - right. intros (a & b & t & E & _). rewrite E in Hn. cbn in Hn. lia. }
  - destruct (opened_ends _ Ho) as (p' & m & l & E & Hp). rewrite E. rewrite to_reversed_open by assumption.
    now destruct (dbg && _).
  - rewrite (to_reversed_closed dbg (p :: rest) p rest eq_refl Ho). discriminate.
Qed.

End C.
