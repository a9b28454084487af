(** Printing and parsing of integers. *)
Require Import Coq.Lists.List Coq.NArith.NArith Coq.ZArith.ZArith Coq.Bool.Bool Coq.micromega.Lia Coq.micromega.ZifyBool.
Require Import Verif.Model.Base Verif.Model.Text.
Import ListNotations.
Local Open Scope N_scope.

Lemma digits_val_app radix a : forall b acc,
  digits_val radix (a ++ b) acc =
  match digits_val radix a acc with Some v => digits_val radix b v | None => None end.
Proof.
  induction a as [|c a IH]; intros b acc; [reflexivity|]. cbn [app digits_val].
  destruct (digit_val radix c); [apply IH|reflexivity].
Qed.

Lemma digit_val_char radix d : radix <= 16 -> d < radix -> digit_val radix (digit_char d) = Some d.
Proof.
  intros Hr Hd. unfold digit_val, digit_char.
  destruct (N.ltb_spec d 10).
  - destruct (N.leb_spec 48 (48 + d)), (N.leb_spec (48 + d) 57); try lia. cbn [andb].
    replace (48 + d - 48) with d by lia. destruct (N.ltb_spec d radix); [reflexivity|lia].
  - destruct (N.leb_spec 48 (55 + d)), (N.leb_spec (55 + d) 57); try lia; cbn [andb];
    destruct (N.leb_spec 65 (55 + d)), (N.leb_spec (55 + d) 70); try lia. cbn [andb].
    replace (55 + d - 55) with d by lia. destruct (N.ltb_spec d radix); [reflexivity|lia].
Qed.

Lemma digits_rev_val radix fuel : forall n,
  2 <= radix -> radix <= 16 -> n < radix ^ N.of_nat fuel -> (0 < fuel)%nat ->
  digits_val radix (rev (digits_rev radix fuel n)) 0 = Some n.
Proof.
  induction fuel as [|fuel IH]; intros n H2 H16 Hn Hf; [lia|]. cbn [digits_rev].
  destruct (N.ltb_spec n radix) as [Hlt|Hge].
  - cbn [rev app digits_val]. rewrite digit_val_char by assumption. f_equal; lia.
  - cbn [rev]. rewrite digits_val_app.
    rewrite Nat2N.inj_succ, N.pow_succ_r' in Hn.
    assert (n / radix < radix ^ N.of_nat fuel) by (apply N.div_lt_upper_bound; lia).
    destruct fuel as [|fuel'].
    { cbn in Hn. exfalso. lia. }
    rewrite IH by (try assumption; lia). cbn [digits_val].
    rewrite digit_val_char by (try apply N.mod_upper_bound; lia).
    f_equal. pose proof (N.div_mod n radix ltac:(lia)). lia.
Qed.

Lemma show_uint_val radix n :
  2 <= radix -> radix <= 16 -> digits_val radix (show_uint radix n) 0 = Some n.
Proof.
  intros H2 H16. unfold show_uint. apply digits_rev_val; try assumption; [|lia].
  rewrite Nat2N.inj_succ, N2Nat.id.
  apply N.lt_le_trans with (2 ^ N.succ (N.size n)).
  - apply N.lt_le_trans with (2 ^ N.size n); [apply N.size_gt|]. apply N.pow_le_mono_r; lia.
  - apply N.pow_le_mono_l. assumption.
Qed.

Definition is_digit_char (c : N) : Prop := (48 <= c <= 57) \/ (65 <= c <= 70).

Lemma digits_rev_chars radix fuel : forall n c,
  2 <= radix -> radix <= 16 -> In c (digits_rev radix fuel n) -> is_digit_char c.
Proof.
  induction fuel as [|fuel IH]; intros n c H2 H16 H; [destruct H|]. cbn [digits_rev] in H.
  assert (forall d, d < radix -> is_digit_char (digit_char d)) as Hd.
  { intros d Hd. unfold digit_char, is_digit_char. destruct (N.ltb_spec d 10); lia. }
  destruct (N.ltb_spec n radix).
  - destruct H as [<-|[]]. now apply Hd.
  - destruct H as [<-|H].
    + apply Hd. apply N.mod_upper_bound. lia.
    + now apply (IH (n / radix)).
Qed.

Lemma show_uint_chars radix n c :
  2 <= radix -> radix <= 16 -> In c (show_uint radix n) -> is_digit_char c.
Proof. intros H2 H16 H. unfold show_uint in H. apply in_rev in H. eapply digits_rev_chars; eauto. Qed.

(** decimal digits only *)
Lemma digits_rev_chars10 fuel : forall n c, In c (digits_rev 10 fuel n) -> 48 <= c <= 57.
Proof.
  induction fuel as [|fuel IH]; intros n c H; [destruct H|]. cbn [digits_rev] in H.
  assert (forall d, d < 10 -> 48 <= digit_char d <= 57) as Hd.
  { intros d Hd. unfold digit_char. destruct (N.ltb_spec d 10); lia. }
  destruct (N.ltb_spec n 10).
  - destruct H as [<-|[]]. now apply Hd.
  - destruct H as [<-|H]; [apply Hd; apply N.mod_upper_bound; lia|now apply (IH (n / 10))].
Qed.
Lemma show_dec_chars n c : In c (show_dec n) -> 48 <= c <= 57.
Proof. intros H. unfold show_dec, show_uint in H. apply in_rev in H. eapply digits_rev_chars10; eauto. Qed.

Lemma show_uint_nonempty radix n : show_uint radix n <> [].
Proof.
  unfold show_uint. cbn [digits_rev]. destruct (n <? radix); cbn [rev]; intros H;
    apply (f_equal (@length N)) in H; rewrite app_length in H; cbn in H; lia.
Qed.

Lemma no_plus (s : str) : (forall c, In c s -> c <> 43) ->
  match s with 43 :: t => t | _ => s end = s.
Proof.
  intros H. destruct s as [|c t]; [reflexivity|].
  assert (c <> 43) as Hc by (apply H; now left).
  destruct c as [|p]; [reflexivity|].
  do 6 (destruct p as [p|p|]; try reflexivity). congruence.
Qed.

Lemma parse_show_uint radix maxv n :
  2 <= radix -> radix <= 16 -> n <= maxv -> parse_uint radix maxv (show_uint radix n) = Some n.
Proof.
  intros H2 H16 Hn. unfold parse_uint.
  rewrite no_plus.
  2:{ intros c Hc. apply show_uint_chars in Hc; try assumption. unfold is_digit_char in Hc. lia. }
  rewrite show_uint_val by assumption.
  destruct (N.leb_spec n maxv); [|lia].
  pose proof (show_uint_nonempty radix n). destruct (show_uint radix n); [congruence|reflexivity].
Qed.

Lemma parse_show_u64 n : n <= u64_max -> parse_u64 (show_dec n) = Some n.
Proof. intros H. apply parse_show_uint; [lia|lia|assumption]. Qed.
Lemma parse_show_hex n : n <= u32_max -> parse_hex_u32 (show_hex n) = Some n.
Proof. intros H. apply parse_show_uint; [lia|lia|assumption]. Qed.

Lemma parse_uint_bound radix maxv s n : parse_uint radix maxv s = Some n -> n <= maxv.
Proof.
  unfold parse_uint. intros H.
  destruct (match s with 43 :: t => t | _ => s end) as [|c0 t0]; [discriminate|].
  destruct (digits_val radix _ 0) as [v|]; [|discriminate].
  destruct (N.leb_spec v maxv); [congruence|discriminate].
Qed.

Lemma no_minus {A} (s : str) (f : str -> A) (g : str -> A) : (forall c, In c s -> c <> 45) ->
  match s with 45 :: t => f t | _ => g s end = g s.
Proof.
  intros H. destruct s as [|c t]; [reflexivity|].
  assert (c <> 45) as Hc by (apply H; now left).
  destruct c as [|p]; [reflexivity|].
  do 6 (destruct p as [p|p|]; try reflexivity). congruence.
Qed.

Lemma parse_show_i32 z : (-2147483648 <= z <= 2147483647)%Z -> parse_i32 (show_int z) = Some z.
Proof.
  intros Hz. destruct z as [|p|p].
  - reflexivity.
  - unfold show_int. cbn [Z.to_N]. unfold parse_i32.
    pose proof (show_dec_chars (Npos p)) as Hc.
    pose proof (parse_show_uint 10 2147483647 (Npos p) ltac:(lia) ltac:(lia) ltac:(lia)) as Hp.
    fold (show_dec (Npos p)) in Hp.
    destruct (show_dec (Npos p)) as [|c t]; [discriminate|].
    assert (c <> 45) as Hne by (specialize (Hc c (or_introl eq_refl)); lia).
    rewrite Hp.
    destruct c as [|q]; [reflexivity|].
    do 6 (destruct q as [q|q|]; try reflexivity). congruence.
  - unfold show_int, parse_i32.
    pose proof (show_uint_nonempty 10 (Npos p)) as Hne.
    pose proof (show_uint_val 10 (Npos p) ltac:(lia) ltac:(lia)) as Hv.
    fold (show_dec (Npos p)) in *.
    destruct (show_dec (Npos p)) as [|c t]; [congruence|]. rewrite Hv.
    destruct (N.leb_spec (Npos p) 2147483648); [reflexivity|lia].
Qed.

(** Splitting at a separator. *)
Lemma split_on_none sep s : ~ In sep s -> split_on sep s = [s].
Proof.
  induction s as [|c s IH]; intros H; [reflexivity|]. cbn [split_on].
  destruct (N.eqb_spec c sep) as [->|_]; [exfalso; apply H; now left|].
  rewrite IH by (intros ?; apply H; now right). reflexivity.
Qed.
Lemma split_on_app sep a b : ~ In sep a -> split_on sep (a ++ sep :: b) = a :: split_on sep b.
Proof.
  induction a as [|c a IH]; intros H; cbn [app split_on].
  - now rewrite N.eqb_refl.
  - destruct (N.eqb_spec c sep) as [->|_]; [exfalso; apply H; now left|].
    rewrite IH by (intros ?; apply H; now right). reflexivity.
Qed.
Lemma split_on_nonempty sep s : split_on sep s <> [].
Proof. destruct s as [|c s]; [discriminate|]. cbn. destruct (c =? sep); [discriminate|]. now destruct (split_on sep s). Qed.

(** Joining the pieces gives the string back. *)
Fixpoint join (sep : N) (l : list str) : str :=
  match l with
  | [] => []
  | [p] => p
  | p :: ps => p ++ sep :: join sep ps
  end.
Lemma join_split sep s : join sep (split_on sep s) = s.
Proof.
  induction s as [|c s IH]; [reflexivity|]. cbn [split_on].
  pose proof (split_on_nonempty sep s) as Hne.
  destruct (N.eqb_spec c sep) as [->|_].
  - destruct (split_on sep s) as [|p ps]; [congruence|]. change (join sep ([] :: p :: ps)) with (sep :: join sep (p :: ps)). now rewrite IH.
  - destruct (split_on sep s) as [|p ps]; [congruence|]. destruct ps; cbn [join app] in *; now rewrite IH.
Qed.
Lemma split_pieces sep s p : In p (split_on sep s) -> ~ In sep p.
Proof.
  revert p. induction s as [|c s IH]; intros p Hp.
  - destruct Hp as [<-|[]]. now intros [].
  - cbn [split_on] in Hp. destruct (N.eqb_spec c sep) as [->|Hne].
    + destruct Hp as [<-|Hp]; [now intros []|auto].
    + pose proof (split_on_nonempty sep s). destruct (split_on sep s) as [|q qs]; [congruence|].
      destruct Hp as [<-|Hp].
      * intros [E|E]; [now apply Hne|]. eapply IH; [now left|exact E].
      * apply IH. now right.
Qed.
