(** Whole numbers in text: what the parsers accept. *)
Require Import Coq.Lists.List Coq.NArith.NArith Coq.ZArith.ZArith Coq.Bool.Bool Coq.Strings.String Coq.micromega.Lia.
Require Import Verif.Model.Base Verif.Model.Text Verif.Spec.TextSpec Verif.Facts.TextFacts.
Import ListNotations.
Local Open Scope N_scope.
Lemma digit_val_iff radix c d : radix <= 16 -> digit_val radix c = Some d <-> is_digit_of radix c d.
Proof.
  intros Hr. unfold digit_val, is_digit_of. split.
  - destruct ((48 <=? c) && (c <=? 57)) eqn:E1; [|destruct ((65 <=? c) && (c <=? 70)) eqn:E2; [|destruct ((97 <=? c) && (c <=? 102)) eqn:E3; [|discriminate]]];
    match goal with |- (if ?b then _ else _) = _ -> _ => destruct b eqn:Ed; [|discriminate] end; intros [= <-]; apply N.ltb_lt in Ed; (split; [assumption|]).
    + apply andb_true_iff in E1 as [A B]. apply N.leb_le in A, B. left.
      assert (c = 48 \/ c = 49 \/ c = 50 \/ c = 51 \/ c = 52 \/ c = 53 \/ c = 54 \/ c = 55 \/ c = 56 \/ c = 57) as H by lia.
      repeat destruct H as [->|H]; try reflexivity. subst. reflexivity.
    + apply andb_true_iff in E2 as [A B]. apply N.leb_le in A, B. right.
      assert (c = 65 \/ c = 66 \/ c = 67 \/ c = 68 \/ c = 69 \/ c = 70) as H by lia.
      repeat destruct H as [->|H]; try reflexivity. subst. reflexivity.
    + apply andb_true_iff in E3 as [A B]. apply N.leb_le in A, B. left.
      assert (c = 97 \/ c = 98 \/ c = 99 \/ c = 100 \/ c = 101 \/ c = 102) as H by lia.
      repeat destruct H as [->|H]; try reflexivity. subst. reflexivity.
  - intros (Hd & H). assert (d < 16) as H16 by lia. rewrite <- (N2Nat.id d) in *. set (k := N.to_nat d) in *. clearbody k. rewrite Nat2N.id in H.
    assert (k < 16)%nat as Hk by lia. do 16 (destruct k as [|k]; [destruct H as [H|H]; injection H as <-; match goal with |- match (if ?x then _ else _) with _ => _ end = _ => idtac end; cbn [N.leb N.compare Pos.compare Pos.compare_cont andb]; match goal with |- (if ?a <? radix then _ else _) = Some ?b => change a with b end; apply N.ltb_lt in Hd; rewrite Hd; reflexivity|]). lia.
Qed.

Lemma digits_val_app radix s t a :
  digits_val radix (s ++ t) a = match digits_val radix s a with Some n => digits_val radix t n | None => None end.
Proof.
  revert a. induction s as [|c s IH]; intros a; cbn [app digits_val]; [reflexivity|].
  destruct (digit_val radix c); [apply IH|reflexivity].
Qed.
Lemma digits_val_denotes radix s n : radix <= 16 -> s <> [] -> digits_val radix s 0 = Some n <-> denotes radix s n.
Proof.
  intros Hr. revert n. induction s as [|c s IH] using rev_ind; intros n Hs; [congruence|].
  rewrite digits_val_app. destruct s as [|b s].
  - cbn [digits_val app]. split.
    + destruct (digit_val radix c) as [d|] eqn:E; [|discriminate]. rewrite ?N.mul_0_l, ?N.add_0_l. intros [= <-].
      constructor. now apply digit_val_iff.
    + intros H. inversion H as [c' d Hd E1|s' n' c' d Hn Hd E1].
      * apply digit_val_iff in Hd; [|assumption]. subst. rewrite Hd. rewrite ?N.mul_0_l, ?N.add_0_l. reflexivity.
      * destruct s' as [|x s']; [inversion Hn as [|s2 ? ? ? ? ? E2]; destruct s2; discriminate|]. cbn in E1. injection E1 as _ E1. destruct s'; discriminate.
  - assert (b :: s <> []) as Hs' by discriminate. split.
    + destruct (digits_val radix (b :: s) 0) as [m|] eqn:E; [|discriminate]. cbn [digits_val].
      destruct (digit_val radix c) as [d|] eqn:Ed; [|discriminate]. intros [= <-].
      constructor; [now apply (IH m)|now apply digit_val_iff].
    + intros H. inversion H as [c' d Hd E1|s' n' c' d Hn Hd E1].
      * destruct s; discriminate.
      * change (b :: s ++ [c]) with ((b :: s) ++ [c]) in E1. apply app_inj_tail in E1 as [-> ->]. apply (IH n' Hs') in Hn. rewrite Hn. cbn [digits_val].
        apply digit_val_iff in Hd; [|assumption]. rewrite Hd. reflexivity.
Qed.
Lemma denotes_nonempty radix s n : denotes radix s n -> s <> [].
Proof. intros H. destruct H; [discriminate|]. destruct s; discriminate. Qed.
Lemma digits_no_sign radix t n x : radix <= 16 -> (x = 43 \/ x = 45) -> ~ denotes radix (x :: t) n.
Proof.
  intros Hr Hx H. apply digits_val_denotes in H; [|assumption|discriminate]. cbn [digits_val] in H.
  destruct (digit_val radix x) as [d|] eqn:E; [|discriminate].
  unfold digit_val in E. destruct Hx as [->| ->]; cbn in E; discriminate.
Qed.
Lemma parse_uint_iff radix m s n : radix <= 16 -> parse_uint radix m s = Some n <-> unsigned_text radix s n /\ n <= m.
Proof.
  intros Hr. unfold parse_uint, unsigned_text.
  assert (X : forall b : str, match b with [] => None | _ :: _ => match digits_val radix b 0 with Some v => if v <=? m then Some v else None | None => None end end = Some n
    <-> denotes radix b n /\ n <= m).
  { intros [|c b].
    - split; [discriminate|]. intros [H _]. apply denotes_nonempty in H. congruence.
    - rewrite <- digits_val_denotes by (assumption || discriminate). destruct (digits_val radix (c :: b) 0) as [v|].
      + destruct (N.leb_spec v m) as [Hv|Hv]; split.
        * intros [= <-]. auto.
        * intros [H _]. assumption.
        * discriminate.
        * intros [[= <-] H]. lia.
      + split; [discriminate|intros [H _]; discriminate]. }
  rewrite X. split.
  - intros [H Hn]. split; [|assumption]. destruct s as [|x t]; [auto|].
    destruct (N.eq_dec x 43) as [->|Hx]; [eauto|].
    left. destruct x as [|p]; [exact H|]. repeat (destruct p as [p|p|]; try exact H). congruence.
  - intros [H Hn]. split; [|assumption]. destruct H as [H|(t & -> & H)]; [|exact H].
    destruct s as [|x t]; [exact H|]. destruct (N.eq_dec x 43) as [->|Hx]; [exfalso; revert H; apply digits_no_sign; auto|].
    destruct x as [|p]; [exact H|]. repeat (destruct p as [p|p|]; try exact H); congruence.
Qed.
Lemma parse_uint_none radix m s : radix <= 16 -> parse_uint radix m s = None <-> forall n, unsigned_text radix s n -> m < n.
Proof.
  intros Hr. split.
  - intros H n Hn. apply N.lt_nge. intros Hm. assert (parse_uint radix m s = Some n) by (apply parse_uint_iff; auto). congruence.
  - intros H. destruct (parse_uint radix m s) as [n|] eqn:E; [|reflexivity]. apply parse_uint_iff in E as [E1 E2]; [|assumption].
    specialize (H n E1). lia.
Qed.
Lemma unsigned_text_unique radix s n m : radix <= 16 -> unsigned_text radix s n -> unsigned_text radix s m -> n = m.
Proof.
  intros Hr Hn Hm. assert (parse_uint radix (N.max n m) s = Some n) as E1 by (apply parse_uint_iff; [assumption|split; [assumption|lia]]).
  assert (parse_uint radix (N.max n m) s = Some m) as E2 by (apply parse_uint_iff; [assumption|split; [assumption|lia]]). congruence.
Qed.
Lemma parse_i32_iff s z : parse_i32 s = Some z <-> signed_text s z /\ (-2147483648 <= z <= 2147483647)%Z.
Proof.
  unfold signed_text.
  assert (P : (match parse_uint 10 2147483647 s with Some v => Some (Z.of_N v) | None => None end = Some z) <->
              (exists n, z = Z.of_N n /\ unsigned_text 10 s n) /\ (-2147483648 <= z <= 2147483647)%Z).
  { destruct (parse_uint 10 2147483647 s) as [v|] eqn:E.
    - apply parse_uint_iff in E as [E1 E2]; [|lia]. split.
      + intros [= <-]. split; [eauto|lia].
      + intros [(n & -> & Hn) _]. f_equal. f_equal. now apply (unsigned_text_unique 10 s).
    - rewrite parse_uint_none in E by lia. split; [discriminate|]. intros [(n & -> & Hn) Hz]. specialize (E n Hn). lia. }
  destruct s as [|x t].
  { unfold parse_i32. rewrite P. split.
    - intros [H Hz]. auto.
    - intros [[H|(t & n & H & _)] Hz]; [auto|discriminate]. }
  destruct (N.eq_dec x 45) as [->|Hx].
  - split.
    + destruct t as [|c t]; [discriminate|]. unfold parse_i32. destruct (digits_val 10 (c :: t) 0) as [v|] eqn:E; [|discriminate].
      destruct (N.leb_spec v 2147483648); [|discriminate]. intros [= <-]. apply digits_val_denotes in E; [|lia|discriminate].
      split; [|lia]. right. exists (c :: t), v. auto.
    + intros [[(n & -> & [H|(t' & H & _)])|(t' & n & [= <-] & -> & H)] Hz]; [exfalso; eapply digits_no_sign; [| |exact H]; [lia|auto]|discriminate|].
      pose proof (denotes_nonempty _ _ _ H) as Ht. destruct t as [|c t]; [congruence|]. unfold parse_i32.
      apply digits_val_denotes in H; [|lia|discriminate]. rewrite H. destruct (N.leb_spec n 2147483648); [reflexivity|lia].
  - assert (parse_i32 (x :: t) = match parse_uint 10 2147483647 (x :: t) with Some v => Some (Z.of_N v) | None => None end) as ->.
    { unfold parse_i32. destruct x as [|p]; [reflexivity|]. repeat (destruct p as [p|p|]; try reflexivity). congruence. }
    rewrite P. split.
    + intros [H Hz]. auto.
    + intros [[H|(t' & n & [= ] & _)] Hz]; [auto|congruence].
Qed.

(** Written numbers: the digits, without zeros in front. *)
Lemma digits_rev_last radix fuel : forall n, 2 <= radix -> 0 < n -> n < radix ^ N.of_nat fuel -> last (digits_rev radix fuel n) 0 <> 48.
Proof.
  induction fuel as [|fuel IH]; intros n Hr Hn Hf.
  { change (N.of_nat 0) with 0 in Hf. rewrite N.pow_0_r in Hf. lia. }
  cbn [digits_rev]. destruct (N.ltb_spec n radix) as [Hlt|Hge].
  - cbn [last]. unfold digit_char. destruct (n <? 10); lia.
  - assert (n / radix < radix ^ N.of_nat fuel) as Hq.
    { apply N.div_lt_upper_bound; [lia|]. rewrite Nat2N.inj_succ, N.pow_succ_r' in Hf. assumption. }
    assert (0 < n / radix) as H0 by (apply N.div_str_pos; lia).
    specialize (IH (n / radix) Hr H0 Hq). destruct (digits_rev radix fuel (n / radix)) as [|y l] eqn:E.
    + destruct fuel as [|fuel]; [change (N.of_nat 0) with 0 in Hq; rewrite N.pow_0_r in Hq; lia|]. cbn [digits_rev] in E. destruct (_ <? _); discriminate.
    + exact IH.
Qed.
Lemma rev_hd {A} (l : list A) d : hd d (rev l) = last l d.
Proof. destruct l as [|x l] using rev_ind; [reflexivity|]. rewrite rev_app_distr, last_last. reflexivity. Qed.
Lemma show_uint_written radix n : 2 <= radix -> radix <= 16 ->
  denotes radix (show_uint radix n) n /\ (0 < n -> hd 0 (show_uint radix n) <> 48) /\ (n = 0 -> show_uint radix n = [48]).
Proof.
  intros H2 H16. split; [|split].
  - apply digits_val_denotes; [assumption|apply show_uint_nonempty|now apply show_uint_val].
  - intros Hn. unfold show_uint. rewrite rev_hd. apply digits_rev_last; [assumption|assumption|].
    rewrite Nat2N.inj_succ, N2Nat.id. apply N.lt_le_trans with (2 ^ N.succ (N.size n)).
    + apply N.lt_le_trans with (2 ^ N.size n); [apply N.size_gt|]. apply N.pow_le_mono_r; lia.
    + apply N.pow_le_mono_l. assumption.
  - intros ->. unfold show_uint. cbn [digits_rev]. destruct (N.ltb_spec 0 radix); [reflexivity|lia].
Qed.
