(** The concrete number library: printing then reading gives the same float. *)
Require Import Coq.Lists.List Coq.NArith.NArith Coq.ZArith.ZArith Coq.Bool.Bool Coq.Strings.String Coq.Floats.SpecFloat Coq.micromega.Lia Coq.micromega.ZifyBool.
Require Import Verif.Model.Base Verif.Model.Text Verif.Model.Float Verif.Model.Num Verif.Model.RustNum
  Verif.Facts.NamesFacts Verif.Facts.TextFacts Verif.Facts.FloatFacts.
Import ListNotations.
Local Open Scope Z_scope.

Lemma span_digits_all a : forall b, (forall c, In c a -> is_digit c = true) ->
  match b with [] => True | c :: _ => is_digit c = false end ->
  span_digits (a ++ b) = (a, b).
Proof.
  induction a as [|c a IH]; intros b Ha Hb.
  - destruct b as [|c b]; [reflexivity|]. cbn [app span_digits]. now rewrite Hb.
  - cbn [app span_digits]. rewrite (Ha c (or_introl eq_refl)).
    rewrite IH; [reflexivity|intros; apply Ha; now right|assumption].
Qed.

Lemma is_digit_iff c : is_digit c = true <-> (48 <= c <= 57)%N.
Proof. unfold is_digit. lia. Qed.

Lemma dec_val_zeros n s : digits_val 10 (repeat 48%N n ++ s) 0 = digits_val 10 s 0.
Proof. induction n as [|n IH]; [reflexivity|]. cbn [repeat app digits_val]. exact IH. Qed.

Lemma pad_digits n M c : In c (pad_left n (show_dec M)) -> is_digit c = true.
Proof.
  unfold pad_left. intros H. apply in_app_or in H as [H|H].
  - apply repeat_spec in H. subst. reflexivity.
  - apply is_digit_iff. now apply (show_dec_chars M).
Qed.

Lemma pad_val n M : dec_val (pad_left n (show_dec M)) = M.
Proof.
  unfold dec_val, pad_left. rewrite dec_val_zeros. unfold show_dec. now rewrite show_uint_val by lia.
Qed.

Lemma pad_length n M : (n <= List.length (pad_left n (show_dec M)))%nat.
Proof. unfold pad_left. rewrite app_length, repeat_length. lia. Qed.

(** The first character is a digit. *)
Lemma show_scaled_head M k : exists c t, show_scaled M k = c :: t /\ is_digit c = true.
Proof.
  unfold show_scaled. pose proof (pad_length (S k) M) as Hl. pose proof (pad_digits (S k) M) as Hd.
  destruct (pad_left (S k) (show_dec M)) as [|c t]; [cbn in Hl; lia|].
  destruct k as [|k].
  - exists c, t. split; [reflexivity|]. apply Hd. now left.
  - destruct (List.length (c :: t) - S k)%nat as [|j] eqn:E; [lia|]. cbn [firstn].
    exists c. eexists. split; [cbn [app]; reflexivity|]. apply Hd. now left.
Qed.

Lemma digit_not_word c t w : is_digit c = true ->
  match w with [] => True | d :: _ => (97 <= d)%N end -> str_eqb (map ascii_lower (c :: t)) w = false.
Proof.
  intros Hc Hw. apply str_eqb_neq. intros E. destruct w as [|d w]; [discriminate|].
  cbn [map] in E. injection E as E _. unfold ascii_lower in E. apply is_digit_iff in Hc.
  destruct ((65 <=? c) && (c <=? 90))%N eqn:Ez; lia.
Qed.

Lemma read_show_scaled s M k :
  read_unsigned s (show_scaled M k) = Some (f32_of_decimal s M (- Z.of_nat k)).
Proof.
  destruct (show_scaled_head M k) as (c0 & t0 & E0 & Hc0).
  unfold read_unsigned. rewrite E0.
  rewrite (digit_not_word c0 t0 (lit "inf")), (digit_not_word c0 t0 (lit "infinity")),
    (digit_not_word c0 t0 (lit "nan")) by (try assumption; cbn; lia). cbn [orb].
  rewrite <- E0. clear c0 t0 E0 Hc0.
  unfold show_scaled. pose proof (pad_length (S k) M) as Hl. pose proof (pad_digits (S k) M) as Hd.
  pose proof (pad_val (S k) M) as Hv.
  set (ds := pad_left (S k) (show_dec M)) in *. destruct k as [|k].
  - pose proof (span_digits_all ds [] Hd I) as Hs. rewrite app_nil_r in Hs. rewrite Hs.
    rewrite app_nil_r. destruct ds as [|c t] eqn:E; [cbn in Hl; lia|]. rewrite <- E in *.
    cbn [read_exponent]. rewrite Hv. cbn [List.length]. reflexivity.
  - set (j := (List.length ds - S k)%nat).
    rewrite (span_digits_all (firstn j ds)).
    2:{ intros c Hc. apply Hd. rewrite <- (firstn_skipn j ds). apply in_or_app. now left. }
    2:{ reflexivity. }
    cbn [app]. pose proof (span_digits_all (skipn j ds) []) as Hs. rewrite app_nil_r in Hs.
    rewrite Hs.
    2:{ intros c Hc. apply Hd. rewrite <- (firstn_skipn j ds). apply in_or_app. now right. }
    2:{ exact I. }
    rewrite firstn_skipn. destruct ds as [|c t] eqn:E; [cbn in Hl; lia|]. rewrite <- E in *.
    cbn [read_exponent]. rewrite Hv. rewrite skipn_length. do 2 f_equal. unfold j. rewrite <- E. lia.
Qed.

Lemma exact_reads_back s m e :
  valid32 (S754_finite s m e) = true ->
  let '(M, k) := exact_decimal m e in f32_of_decimal s M (- Z.of_nat k) = S754_finite s m e.
Proof.
  unfold valid32. cbn [valid_binary]. intros H. unfold exact_decimal.
  destruct (Z.leb_spec 0 e) as [He|He].
  - assert (0 < Zpos m * 2 ^ e) by (pose proof (Z.pow_pos_nonneg 2 e); lia).
    destruct (Z.to_N (Zpos m * 2 ^ e)) as [|p] eqn:E; [lia|].
    cbn [f32_of_decimal]. change (- Z.of_nat 0) with 0. cbn [Z.leb Z.compare].
    rewrite Z.mul_1_r. rewrite normalize_cond.
    assert (p = shiftZ e m) as ->.
    { enough (Zpos p = Zpos (shiftZ e m)) by congruence. rewrite shiftZ_Z by assumption. lia. }
    replace 0 with (e - e) by lia. now apply round_finer.
  - assert (0 < Zpos m * 5 ^ (- e)) by (pose proof (Z.pow_pos_nonneg 5 (- e)); lia).
    destruct (Z.to_N (Zpos m * 5 ^ (- e))) as [|p] eqn:E; [lia|].
    assert (Zpos p = Zpos m * 5 ^ (- e)) as Hp by lia.
    unfold f32_of_decimal. rewrite Z2Nat.id by lia.
    destruct (Z.leb_spec 0 (- - e)); [lia|]. rewrite Hp.
    pose proof (Z.pow_pos_nonneg 5 (- e)).
    rewrite Z.opp_involutive. rewrite Z.mod_mul by lia. rewrite Z.eqb_refl.
    rewrite Z.div_mul by lia. rewrite Z.opp_involutive. now apply normalize_same.
Qed.

Lemma show_abs_reads s m e : valid32 (S754_finite s m e) = true ->
  read_unsigned s (show_abs s m e) = Some (S754_finite s m e) /\
  exists c t, show_abs s m e = c :: t /\ is_digit c = true.
Proof.
  intros H. unfold show_abs.
  pose proof (exact_reads_back s m e H) as Hx. destruct (exact_decimal m e) as [M0 k0].
  destruct (find _ (seq 1 9)) as [n|] eqn:F.
  - apply find_some in F as [_ F]. destruct (round_decimal n (M0, k0)) as [M k].
    split; [|apply show_scaled_head]. destruct (read_unsigned s (show_scaled M k)) as [g|]; [|discriminate].
    apply feq_true in F as [->|(a & b & _ & E)]; [reflexivity|discriminate].
  - split; [|apply show_scaled_head]. rewrite read_show_scaled. now rewrite Hx.
Qed.

Theorem rust_f32_round_trip g : valid32 g = true -> rust_f32_read (rust_f32_show g) = Some g.
Proof.
  destruct g as [s|s| |s m e]; intros H.
  - destruct s; reflexivity.
  - destruct s; reflexivity.
  - reflexivity.
  - destruct (show_abs_reads s m e H) as (Hr & c & t & E & Hc). unfold rust_f32_show.
    destruct s; cbn [app].
    + exact Hr.
    + rewrite E in *. apply is_digit_iff in Hc. unfold rust_f32_read.
      destruct c as [|p]; [exact Hr|].
      do 6 (destruct p as [p|p|]; try exact Hr; try lia).
Qed.

(** A text that reads as an integer reads as the same value as a float. *)
Lemma digits_val_is_digits s : forall acc v, digits_val 10 s acc = Some v -> forall c, In c s -> is_digit c = true.
Proof.
  induction s as [|d s IH]; intros acc v H c Hc; [destruct Hc|]. cbn [digits_val] in H.
  destruct (digit_val 10 d) as [x|] eqn:E; [|discriminate]. destruct Hc as [<-|Hc]; [|eauto].
  apply is_digit_iff. unfold digit_val in E.
  destruct ((48 <=? d) && (d <=? 57))%N eqn:E1; [lia|].
  destruct ((65 <=? d) && (d <=? 70))%N eqn:E2.
  { destruct (N.ltb_spec (d - 55) 10); [lia|discriminate]. }
  destruct ((97 <=? d) && (d <=? 102))%N eqn:E3; [|discriminate].
  destruct (N.ltb_spec (d - 87) 10); [lia|discriminate].
Qed.

Lemma read_unsigned_digits s t v : t <> [] -> digits_val 10 t 0 = Some v ->
  read_unsigned s t = Some (f32_of_decimal s v 0).
Proof.
  intros Hne Hv. pose proof (digits_val_is_digits t 0 v Hv) as Hd.
  destruct t as [|c t]; [congruence|]. assert (is_digit c = true) as Hc by (apply Hd; now left).
  unfold read_unsigned.
  rewrite (digit_not_word c t (lit "inf")), (digit_not_word c t (lit "infinity")),
    (digit_not_word c t (lit "nan")) by (try assumption; cbn; lia). cbn [orb].
  pose proof (span_digits_all (c :: t) [] Hd I) as Hs. rewrite app_nil_r in Hs. rewrite Hs.
  rewrite app_nil_r. cbn [read_exponent]. unfold dec_val. now rewrite Hv.
Qed.

Lemma decimal_of_int s (v : N) : v <> 0%N ->
  f32_of_decimal s v 0 = f32_of_Z (cond_Zopp s (Z.of_N v)).
Proof.
  intros H. destruct v as [|p]; [congruence|]. unfold f32_of_decimal, f32_of_Z. cbn [Z.leb Z.compare].
  rewrite Z.mul_1_r. destruct s; reflexivity.
Qed.

Theorem rust_iof_read_value t i g : rust_iof_read t = Some i -> rust_f32_read t = Some g ->
  g <> S754_zero true -> f32_of_iof i = g.
Proof.
  unfold rust_iof_read. destruct (parse_i32 t) as [z|] eqn:E.
  2:{ intros H1 H2 _. rewrite H2 in H1. cbn in H1. injection H1 as <-. reflexivity. }
  intros [= <-] Hg Hz. cbn [f32_of_iof]. unfold parse_i32 in E.
  assert (forall body v, body <> [] -> digits_val 10 body 0 = Some v ->
            read_unsigned false body = Some (f32_of_Z (Z.of_N v))) as Hpos.
  { intros body v Hb Hv. rewrite (read_unsigned_digits false body v Hb Hv).
    destruct (N.eq_dec v 0) as [->|Hn]; [reflexivity|]. now rewrite decimal_of_int. }
  assert (forall body z', parse_uint 10 2147483647 body = Some z' ->
     rust_f32_read body = Some (f32_of_Z (Z.of_N z'))) as Huint.
  { clear. intros body z' H. unfold parse_uint in H. unfold rust_f32_read.
    assert (forall body v, body <> [] -> digits_val 10 body 0 = Some v ->
            read_unsigned false body = Some (f32_of_Z (Z.of_N v))) as Hpos.
    { intros b v Hb Hv. rewrite (read_unsigned_digits false b v Hb Hv).
      destruct (N.eq_dec v 0) as [->|Hn]; [reflexivity|]. now rewrite decimal_of_int. }
    assert (forall b, match b with [] => None | _ => match digits_val 10 b 0 with
              | Some v => if (v <=? 2147483647)%N then Some v else None | None => None end end = Some z' ->
              b <> [] /\ digits_val 10 b 0 = Some z') as Hb.
    { intros b Hb. destruct b as [|x b]; [discriminate|]. split; [discriminate|].
      destruct (digits_val 10 (x :: b) 0) as [v|]; [|discriminate].
      destruct (v <=? 2147483647)%N; [congruence|discriminate]. }
    destruct body as [|c b]; [discriminate|].
    destruct (N.eq_dec c 43) as [->|Hc43].
    - apply Hb in H as [H1 H2]. now apply Hpos.
    - assert (match digits_val 10 (c :: b) 0 with
              | Some v => if (v <=? 2147483647)%N then Some v else None | None => None end = Some z') as Hm.
      { destruct c as [|p]; [exact H|]. do 6 (destruct p as [p|p|]; try exact H). congruence. }
      apply (Hb (c :: b)) in Hm as [H1 H2].
      assert (is_digit c = true) as Hc by (eapply digits_val_is_digits; [exact H2|now left]).
      apply is_digit_iff in Hc. specialize (Hpos _ _ H1 H2).
      destruct c as [|p]; [exact Hpos|]. do 6 (destruct p as [p|p|]; try exact Hpos; try lia). }
  destruct t as [|c t]; [discriminate|].
  destruct (N.eq_dec c 45) as [->|Hc].
  - destruct t as [|d t]; [discriminate|].
    destruct (digits_val 10 (d :: t) 0) as [v|] eqn:Ev; [|discriminate].
    destruct (N.leb_spec v 2147483648) as [_|_]; [|discriminate]. injection E as <-.
    unfold rust_f32_read in Hg. rewrite (read_unsigned_digits true (d :: t) v ltac:(discriminate) Ev) in Hg.
    injection Hg as <-. destruct (N.eq_dec v 0) as [->|Hn]; [exfalso; apply Hz; reflexivity|].
    rewrite decimal_of_int by assumption. reflexivity.
  - assert (match parse_uint 10 2147483647 (c :: t) with Some v => Some (Z.of_N v) | None => None end = Some z) as E'.
    { destruct c as [|p]; [exact E|]. do 6 (destruct p as [p|p|]; try exact E). congruence. }
    destruct (parse_uint 10 2147483647 (c :: t)) as [v|] eqn:Ev; [|discriminate].
    injection E' as <-. rewrite (Huint _ _ Ev) in Hg. congruence.
Qed.

(** Value-level round trip of `IntegerOrFloat` text for floats other than -0.0. *)
Theorem rust_iof_round_trip g : valid32 g = true -> g <> S754_zero true ->
  option_map f32_of_iof (iof_read rust_num (iof_show rust_num (iof_of_f32 rust_num g))) = Some g.
Proof.
  intros Hv Hz. cbn [iof_read iof_show iof_of_f32 rust_num rust_iof_show].
  pose proof (rust_f32_round_trip g Hv) as Hr.
  destruct (rust_iof_read (rust_f32_show g)) as [i|] eqn:E.
  - cbn [option_map]. f_equal. eapply rust_iof_read_value; eauto.
  - unfold rust_iof_read in E. destruct (parse_i32 _); [discriminate|]. rewrite Hr in E. discriminate.
Qed.

(** Integers in the i32 range. *)
Theorem rust_iof_round_trip_int z : -2147483648 <= z <= 2147483647 ->
  iof_read rust_num (iof_show rust_num (IInt z)) = Some (IInt z).
Proof. intros H. cbn. unfold rust_iof_read. now rewrite parse_show_i32. Qed.
