(** Decimal texts: what the float reader accepts and which float it returns. *)
Require Import Coq.Strings.String Coq.Lists.List Coq.NArith.NArith Coq.ZArith.ZArith Coq.Bool.Bool Coq.QArith.QArith Coq.QArith.Qabs Coq.QArith.Qround Coq.QArith.Qpower Coq.Floats.SpecFloat
  Coq.micromega.Lia Coq.micromega.Lqa Coq.micromega.ZifyBool.
Require Import Verif.Model.Base Verif.Model.Text Verif.Model.Float Verif.Model.Num Verif.Model.RustNum Verif.Spec.TextSpec Verif.Spec.MfekSpec
  Verif.Spec.AccuracySpec Verif.Spec.RoundSpec Verif.Facts.NamesFacts Verif.Facts.TextFacts Verif.Facts.FloatFacts Verif.Facts.RustNumFacts Verif.Facts.DigitFacts
  Verif.Facts.RoundFacts Verif.Facts.ExactFacts Verif.Facts.ValueFacts Verif.Facts.ErrorFacts Verif.Facts.CorrectFacts.
Import ListNotations.
Local Open Scope Q_scope.

Lemma ten_pow (k : Z) : (0 <= k)%Z -> (10:Q) ^ k == inject_Z (10 ^ k).
Proof. intros H. change (10:Q) with (inject_Z 10). now rewrite <- Zpower_Qpower. Qed.
Lemma pow_opp (a : Q) (k : Z) : a ^ (- k) == / a ^ k.
Proof. apply Qpower_opp. Qed.

Lemma decimal_correct s M E : valid32 (f32_of_decimal s M E) = true /\
  correct 24 128 s (inject_Z (Z.of_N M) * 10 ^ E) (f32_of_decimal s M E).
Proof.
  destruct M as [|m].
  { split; [reflexivity|]. apply (correct_proper 24 128 s 0); [cbn; ring|]. now apply correct_zero. }
  cbn [Z.of_N]. unfold f32_of_decimal. destruct (Z.leb_spec 0 E) as [HE|HE].
  - split; [apply (normalize_valid 24 128); lia|].
    assert (0 < Zpos m * 10 ^ E)%Z as Hp by (apply Z.mul_pos_pos; [lia|]; apply Z.pow_pos_nonneg; lia).
    destruct (Zpos m * 10 ^ E)%Z as [|p|p] eqn:Ep; [lia| |lia].
    apply (correct_proper 24 128 s (inject_Z (Zpos p) * 2 ^ 0)); [|apply (normalize_correct 24 128); lia].
    rewrite <- Ep, inject_Z_mult, <- ten_pow by lia. change (2 ^ 0) with 1. ring.
  - cbv zeta. set (k := (- E)%Z). assert (0 <= k)%Z as Hk by (unfold k; lia). replace E with (- k)%Z by (unfold k; lia). clearbody k. clear HE E.
    assert (0 < 10 ^ k)%Z as H10 by (apply Z.pow_pos_nonneg; lia).
    assert (0 < 5 ^ k)%Z as H5 by (apply Z.pow_pos_nonneg; lia).
    destruct (Z.eqb_spec (Zpos m mod 5 ^ k) 0) as [Hm|Hm].
    + split; [apply (normalize_valid 24 128); lia|].
      assert (Zpos m = 5 ^ k * (Zpos m / 5 ^ k))%Z as Ed by (apply Z_div_exact_full_2; [lia|assumption]).
      destruct (Zpos m / 5 ^ k)%Z as [|p|p] eqn:Ep; [lia| |lia].
      apply (correct_proper 24 128 s (inject_Z (Zpos p) * 2 ^ (- k))); [|apply (normalize_correct 24 128); lia].
      rewrite Ed, inject_Z_mult, !pow_opp, ten_pow by lia. change 10%Z with (2 * 5)%Z. rewrite Z.pow_mul_l, inject_Z_mult.
      change (2:Q) with (inject_Z 2). rewrite <- Zpower_Qpower by lia.
      assert (~ inject_Z (5 ^ k) == 0) by (unfold Qeq; cbn; lia).
      assert (~ inject_Z (2 ^ k) == 0). { unfold Qeq; cbn. assert (0 < 2 ^ k)%Z by (apply Z.pow_pos_nonneg; lia). lia. }
      field. split; assumption.
    + destruct (10 ^ k)%Z as [|p|p] eqn:Ep; [lia| |lia].
      split; [apply (quotient_valid 24 128); lia|].
      apply (correct_proper 24 128 s (inject_Z (Zpos m) * 2 ^ 0 / (inject_Z (Zpos p) * 2 ^ 0))); [|apply (quotient_correct 24 128); lia].
      rewrite pow_opp, ten_pow, Ep by lia. change (2 ^ 0) with 1. rewrite !Qmult_1_r. reflexivity.
Qed.

Lemma decimal_rounded s M E : rounded32 (signed s (inject_Z (Z.of_N M) * 10 ^ E)) (f32_of_decimal s M E) /\ negative (f32_of_decimal s M E) = s.
Proof.
  destruct (decimal_correct s M E) as [V C]. apply (correct_rounded s _ _); [|assumption|assumption].
  apply Qmult_le_0_compat; [unfold inject_Z, Qle; cbn; lia|]. apply Qpower_0_le. discriminate.
Qed.

(** Digits. *)
Lemma digits_denote s : s <> [] -> (forall c, In c s -> is_digit c = true) -> denotes 10 s (dec_val s).
Proof.
  intros Hs Hd. apply digits_val_denotes; [lia|assumption|]. unfold dec_val.
  assert (forall a, exists v, digits_val 10 s a = Some v) as H.
  { clear Hs. induction s as [|c s IH]; intros a; [eexists; reflexivity|]. cbn [digits_val].
    assert (is_digit c = true) as Hc by (apply Hd; now left). apply is_digit_iff in Hc.
    unfold digit_val. replace ((48 <=? c) && (c <=? 57))%N with true by lia.
    replace (c - 48 <? 10)%N with true by lia. apply IH. intros; apply Hd; now right. }
  destruct (H 0%N) as [v ->]. reflexivity.
Qed.
Lemma denotes_digits s n : denotes 10 s n -> (forall c, In c s -> is_digit c = true) /\ dec_val s = n.
Proof.
  intros H. pose proof (denotes_nonempty _ _ _ H) as Hn. apply digits_val_denotes in H; [|lia|assumption].
  split; [exact (digits_val_is_digits s 0 n H)|]. unfold dec_val. now rewrite H.
Qed.
Lemma span_digits_spec t : forall a b, span_digits t = (a, b) -> t = a ++ b /\ (forall c, In c a -> is_digit c = true) /\
  match b with [] => True | c :: _ => is_digit c = false end.
Proof.
  induction t as [|c t IH]; intros a b; cbn [span_digits].
  - intros [= <- <-]. repeat split. intros ? [].
  - destruct (is_digit c) eqn:Ec.
    + destruct (span_digits t) as [a' b']. intros [= <- <-]. destruct (IH _ _ eq_refl) as (-> & H1 & H2).
      split; [reflexivity|]. split; [|assumption]. intros d [<-|Hd]; auto.
    + intros [= <- <-]. split; [reflexivity|]. split; [intros ? []|assumption].
Qed.

Definition sign_split (t : str) : bool * str :=
  match t with 45%N :: b => (true, b) | 43%N :: b => (false, b) | _ => (false, t) end.
Definition no_sign (t : str) : Prop := match t with [] => True | c :: _ => c <> 43%N /\ c <> 45%N end.
Lemma sign_split_iff t neg b : no_sign b -> sign_split t = (neg, b) <-> exists sg, sign_text sg neg /\ t = sg ++ b.
Proof.
  intros Hb. unfold sign_text. split.
  - destruct t as [|c t]; [cbn; intros [= <- <-]; exists []; auto|].
    destruct (N.eq_dec c 45) as [->|H1]; [cbn; intros [= <- <-]; exists (lit "-"); cbn; auto 6|].
    destruct (N.eq_dec c 43) as [->|H2]; [cbn; intros [= <- <-]; exists (lit "+"); cbn; auto 6|].
    intros E. exists []. cbn [app]. assert (sign_split (c :: t) = (false, c :: t)) as E'.
    { unfold sign_split. destruct c as [|p]; [reflexivity|]. do 6 (destruct p as [p|p|]; try reflexivity; try congruence). }
    rewrite E' in E. injection E as <- <-. auto.
  - intros (sg & [[-> ->]|[[-> ->]|[-> ->]]] & ->); try reflexivity. cbn [app].
    destruct b as [|c b]; [reflexivity|]. destruct Hb as [H1 H2].
    unfold sign_split. destruct c as [|p]; [reflexivity|]. do 6 (destruct p as [p|p|]; try reflexivity; try congruence).
Qed.
Lemma sign_split_total t : exists neg b, sign_split t = (neg, b) /\ exists sg, sign_text sg neg /\ t = sg ++ b.
Proof.
  unfold sign_text. destruct t as [|c t]; [exists false, []; split; [reflexivity|]; exists []; auto|].
  destruct (N.eq_dec c 45) as [->|H1]; [exists true, t; split; [reflexivity|]; exists (lit "-"); cbn; auto 6|].
  destruct (N.eq_dec c 43) as [->|H2]; [exists false, t; split; [reflexivity|]; exists (lit "+"); cbn; auto 6|].
  exists false, (c :: t). split; [|exists []; auto].
  unfold sign_split. destruct c as [|p]; [reflexivity|]. do 6 (destruct p as [p|p|]; try reflexivity; try congruence).
Qed.

Lemma digits_no_sign' d : (forall c, In c d -> is_digit c = true) -> no_sign d.
Proof. intros H. destruct d as [|c d]; [exact I|]. cbn. specialize (H c (or_introl eq_refl)). apply is_digit_iff in H. lia. Qed.

Lemma read_exponent_iff s k : read_exponent s = Some k <-> exponent_text s k.
Proof.
  unfold exponent_text. destruct s as [|c t].
  { cbn. split; [intros [= <-]; auto|]. intros [[_ ->]|(e & sg & d & neg & n & E & _)]; [reflexivity|discriminate]. }
  cbn [read_exponent]. destruct ((c =? 101) || (c =? 69))%N eqn:Ec.
  2:{ split; [discriminate|]. intros [[E _]|(e & sg & d & neg & n & E & He & _)]; [discriminate|]. injection E as -> _. lia. }
  change (match t with 45%N :: r => (true, r) | 43%N :: r2 => (false, r2) | _ => (false, t) end) with (sign_split t).
  split.
  - destruct (sign_split_total t) as (neg & b & -> & sg & Hsg & ->). destruct (span_digits b) as [d r] eqn:Es.
    apply span_digits_spec in Es as (-> & Hd & _). destruct d as [|x d]; [discriminate|]. destruct r as [|y r]; [|discriminate].
    intros [= <-]. right. exists c, sg, (x :: d), neg, (dec_val (x :: d)). rewrite app_nil_r. split; [reflexivity|]. split; [lia|].
    split; [assumption|]. split; [apply digits_denote; [discriminate|assumption]|]. reflexivity.
  - intros [[E _]|(e & sg & d & neg & n & E & He & Hsg & Hd & ->)]; [discriminate|]. injection E as -> ->.
    destruct (denotes_digits _ _ Hd) as [Hdd <-]. rewrite (proj2 (sign_split_iff (sg ++ d) neg d (digits_no_sign' d Hdd))) by eauto.
    pose proof (span_digits_all d [] Hdd I) as Hs. rewrite app_nil_r in Hs. rewrite Hs.
    destruct d as [|x d]; [now apply denotes_nonempty in Hd|]. reflexivity.
Qed.
Lemma exponent_head ex k : exponent_text ex k -> match ex with [] => True | c :: _ => c = 101%N \/ c = 69%N end.
Proof. intros [[-> _]|(e & sg & d & neg & n & -> & He & _)]; [exact I|exact He]. Qed.

Lemma word_iff t w : map ascii_lower w = w -> str_eqb (map ascii_lower t) w = true <-> same_ignoring_case t w.
Proof. intros Hw. rewrite str_eqb_eq. unfold same_ignoring_case. change lower with ascii_lower. rewrite Hw. reflexivity. Qed.

(** Without the sign. *)
Definition unsigned_decimal (t : str) (n : N) (e : Z) : Prop :=
  exists ip fp ex k, exponent_text ex k /\ (t = ip ++ fp ++ ex /\ fp = [] \/ t = ip ++ lit "." ++ fp ++ ex) /\
    denotes 10 (ip ++ fp) n /\ e = (k - Z.of_nat (List.length fp))%Z.
Lemma decimal_head t n e : unsigned_decimal t n e -> exists c r, t = c :: r /\ (is_digit c = true \/ c = 46%N).
Proof.
  intros (ip & fp & ex & k & _ & Ht & Hd & _). destruct (denotes_digits _ _ Hd) as [Hdd _]. pose proof (denotes_nonempty _ _ _ Hd) as Hne.
  destruct ip as [|c ip].
  - destruct Ht as [[-> ->]| ->]; [contradiction|]. exists 46%N. eexists. split; [reflexivity|now right].
  - exists c. assert (is_digit c = true) by (apply Hdd; now left). destruct Ht as [[-> _]| ->]; eexists; split; try reflexivity; now left.
Qed.
Lemma decimal_not_word t n e w : unsigned_decimal t n e -> match w with [] => False | c :: _ => (97 <= c)%N end -> ~ same_ignoring_case t w.
Proof.
  intros H Hw E. destruct (decimal_head _ _ _ H) as (c & r & -> & Hc). destruct w as [|d w]; [contradiction|].
  unfold same_ignoring_case in E. cbn [map] in E. injection E as E _. unfold lower in E.
  assert (48 <= c <= 57 \/ c = 46)%N as Hc' by (destruct Hc as [Hc|Hc]; [left; now apply is_digit_iff|now right]).
  destruct ((65 <=? c) && (c <=? 90))%N eqn:E1, ((65 <=? d) && (d <=? 90))%N eqn:E2; lia.
Qed.

Lemma read_unsigned_iff s t f : read_unsigned s t = Some f <->
  (exists n e, unsigned_decimal t n e /\ f = f32_of_decimal s n e) \/
  ((same_ignoring_case t (lit "inf") \/ same_ignoring_case t (lit "infinity")) /\ f = S754_infinity s) \/
  (same_ignoring_case t (lit "nan") /\ f = S754_nan).
Proof.
  unfold read_unsigned. cbv zeta.
  pose proof (word_iff t (lit "inf") eq_refl) as W1. pose proof (word_iff t (lit "infinity") eq_refl) as W2. pose proof (word_iff t (lit "nan") eq_refl) as W3.
  assert (forall n e, unsigned_decimal t n e -> ~ same_ignoring_case t (lit "inf") /\ ~ same_ignoring_case t (lit "infinity") /\ ~ same_ignoring_case t (lit "nan")) as Hw.
  { intros n e H. repeat split; apply (decimal_not_word t n e); try assumption; vm_compute; congruence. }
  assert (same_ignoring_case t (lit "nan") -> ~ same_ignoring_case t (lit "inf") /\ ~ same_ignoring_case t (lit "infinity")) as Hx.
  { unfold same_ignoring_case. intros ->. split; discriminate. }
  destruct (str_eqb (map ascii_lower t) (lit "inf") || str_eqb (map ascii_lower t) (lit "infinity")) eqn:E1.
  { assert (same_ignoring_case t (lit "inf") \/ same_ignoring_case t (lit "infinity")) as H1 by (apply orb_true_iff in E1 as [E|E]; [left; now apply W1|right; now apply W2]).
    split; [intros [= <-]; auto|]. intros [(n & e & H & _)|[[_ ->]|[H _]]]; [exfalso|reflexivity|exfalso].
    - destruct (Hw _ _ H) as (A & B & _). tauto.
    - destruct (Hx H). tauto. }
  apply orb_false_iff in E1 as [E1 E2].
  assert (~ same_ignoring_case t (lit "inf")) as N1 by (intros H; apply W1 in H; congruence).
  assert (~ same_ignoring_case t (lit "infinity")) as N2 by (intros H; apply W2 in H; congruence).
  destruct (str_eqb (map ascii_lower t) (lit "nan")) eqn:E3.
  { pose proof (proj1 W3 eq_refl) as H3. split; [intros [= <-]; auto|]. intros [(n & e & H & _)|[[H _]|[_ ->]]]; [exfalso|exfalso; tauto|reflexivity].
    destruct (Hw _ _ H) as (_ & _ & A). tauto. }
  assert (~ same_ignoring_case t (lit "nan")) as N3 by (intros H; apply W3 in H; congruence).
  clear W1 W2 W3 Hx E1 E2 E3. transitivity (exists n e, unsigned_decimal t n e /\ f = f32_of_decimal s n e); [|tauto]. clear N1 N2 N3 Hw.
  split.
  - destruct (span_digits t) as [ip r1] eqn:Es. apply span_digits_spec in Es as (-> & Hip & Hr1).
    destruct (match r1 with 46%N :: r => span_digits r | _ => ([], r1) end) as [fp r2] eqn:Ef.
    assert ((r1 = r2 /\ fp = []) \/ (r1 = 46%N :: fp ++ r2 /\ forall c, In c fp -> is_digit c = true)) as Hr.
    { destruct r1 as [|c r1]; [injection Ef as <- <-; auto|]. destruct (N.eq_dec c 46) as [->|Hc].
      - apply span_digits_spec in Ef as (-> & Hf & _). auto.
      - left. assert (([], c :: r1) = (fp, r2)) as Ef'.
        { rewrite <- Ef. destruct c as [|p]; [reflexivity|]. do 6 (destruct p as [p|p|]; try reflexivity; try congruence). }
        injection Ef' as <- <-. auto. }
    clear Ef. assert (forall c, In c fp -> is_digit c = true) as Hfp by (destruct Hr as [[_ ->]|[_ H]]; [intros ? []|assumption]).
    destruct (ip ++ fp) as [|x ds] eqn:Ed; [discriminate|]. destruct (read_exponent r2) as [k|] eqn:Ek; [|discriminate].
    intros [= <-]. apply read_exponent_iff in Ek. exists (dec_val (x :: ds)), (k - Z.of_nat (List.length fp))%Z. split; [|reflexivity].
    exists ip, fp, r2, k. split; [assumption|]. split; [|split; [|reflexivity]].
    + destruct Hr as [[-> ->]|[-> _]]; [left|right]; auto.
    + rewrite Ed. apply digits_denote; [discriminate|]. rewrite <- Ed. intros c Hc. apply in_app_or in Hc as [Hc|Hc]; auto.
  - intros (n & e & (ip & fp & ex & k & Hex & Ht & Hd & ->) & ->).
    destruct (denotes_digits _ _ Hd) as [Hdd <-]. pose proof (denotes_nonempty _ _ _ Hd) as Hne.
    assert (forall c, In c ip -> is_digit c = true) as Hip by (intros; apply Hdd, in_or_app; now left).
    assert (forall c, In c fp -> is_digit c = true) as Hfp by (intros; apply Hdd, in_or_app; now right).
    pose proof (exponent_head _ _ Hex) as Hh.
    assert (match ex with [] => True | c :: _ => is_digit c = false end) as Hh' by (destruct ex as [|c ex]; [exact I|destruct Hh as [->| ->]; reflexivity]).
    apply read_exponent_iff in Hex.
    destruct Ht as [[-> ->]| ->].
    + cbn [app]. rewrite (span_digits_all ip ex Hip Hh').
      replace (match ex with 46%N :: r => span_digits r | _ => ([], ex) end) with (@nil N, ex) by (destruct ex as [|c ex]; [reflexivity|destruct Hh as [->| ->]; reflexivity]).
      rewrite Hex. destruct (ip ++ []); [contradiction|reflexivity].
    + rewrite (span_digits_all ip (lit "." ++ fp ++ ex) Hip eq_refl). change (lit "." ++ fp ++ ex) with (46%N :: fp ++ ex). cbv iota beta.
      rewrite (span_digits_all fp ex Hfp Hh'). rewrite Hex. destruct (ip ++ fp); [contradiction|reflexivity].
Qed.

(** * The rounded float is unique *)
Lemma same_float f g q v : float32 f q -> float32 g v -> q == v -> feq f g = true.
Proof.
  intros [Vf Hf] [Vg Hg] E.
  assert (exists z k, q == inject_Z z * 2 ^ k) as (z & k & Eq).
  { destruct Hf as (w & Hw & Ew). destruct f as [s|s| |s m e]; cbn [value] in Hw; try discriminate; injection Hw as <-.
    - exists 0%Z, 0%Z. rewrite <- Ew. cbn. ring.
    - exists (cond_Zopp s (Zpos m)), e. rewrite <- Ew. destruct s; reflexivity. }
  apply (val_feq 24 128 f g z k Vf Vg); apply val_value.
  - destruct Hf as (w & Hw & Ew). exists w. split; [assumption|]. rewrite Ew. assumption.
  - destruct Hg as (w & Hw & Ew). exists w. split; [assumption|]. rewrite Ew, <- E. assumption.
Qed.
Lemma float32_opp f q : float32 f q -> float32 (SFopp f) (- q).
Proof.
  intros [V (w & Hw & Ew)]. split; [destruct f; exact V|]. destruct (value_opp _ _ Hw) as (y & Hy & Ey).
  exists y. split; [assumption|]. rewrite Ey, Ew. reflexivity.
Qed.
Lemma float32_zero : float32 (S754_zero false) 0.
Proof. split; [reflexivity|]. exists 0. split; reflexivity. Qed.

(** The next float after one with an even mantissa has an odd one. *)
Lemma next_float f q : float32 f q -> 0 <= q -> even_mantissa f -> exists g v, float32 g v /\ q < v /\ ~ even_mantissa g /\
  forall h w, float32 h w -> q < w -> v <= w.
Proof.
  intros [V (w0 & Hw & Ew)] Hq Hev.
  assert (exists m e, (0 <= m)%Z /\ q == inject_Z m * 2 ^ e /\ Z.even m = true /\ (m + 1 < 2 ^ 24)%Z /\ (-149 <= e)%Z /\ (e <= 104)%Z /\ (e = -149 \/ 2 ^ 23 <= m)%Z) as (m & e & Hm & Eq & He & Hlt & He1 & He2 & Hn).
  { destruct f as [s|s| |s m e]; cbn [value] in Hw; try discriminate; injection Hw as <-.
    - exists 0%Z, (-149)%Z. split; [lia|]. split; [rewrite <- Ew; reflexivity|]. cbn. repeat split; try lia.
    - exists (Zpos m), e. cbn [even_mantissa] in Hev. cbn [valid_binary] in V. change (bounded 24 128 m e = true) in V.
      pose proof (bounded_inv 24 128 m e V) as [B1 B2]. pose proof (digits_le_prec 24 128 m e V) as [B3 B4]. pose proof (digits_bounds m) as D.
      assert (s = false) as ->. { destruct s; [|reflexivity]. exfalso. assert (0 < inject_Z (Zpos m) * 2 ^ e) by (apply Qmult_lt_0_compat; [reflexivity|apply pow_pos]).
        rewrite <- Ew in Hq. change (inject_Z (cond_Zopp true (Zpos m)) ) with (- inject_Z (Zpos m)) in Hq. change (inject_Z (- Zpos m)) with (- inject_Z (Zpos m)) in Hq. lra. }
      assert (2 ^ Zpos (digits2_pos m) <= 2 ^ 24)%Z as P by (apply Z.pow_le_mono_r; lia).
      split; [lia|]. split; [rewrite <- Ew; reflexivity|]. split; [assumption|]. split.
      { assert (Zpos m <> 2 ^ 24 - 1)%Z; [intros H; rewrite H in Hev; discriminate|]. lia. }
      unfold SpecFloat.emin in *. split; [lia|]. split; [lia|].
      unfold SpecFloat.fexp, SpecFloat.emin in B1. destruct (Z.eq_dec e (-149)) as [|Hne]; [now left|right].
      assert (Zpos (digits2_pos m) = 24)%Z as Ed by lia. rewrite Ed in D. exact (proj1 D). }
  destruct (m + 1)%Z as [|p|p] eqn:Ep; [lia| |lia].
  assert (valid32 (S754_finite false p e) = true) as Vp.
  { change (bounded 24 128 p e = true). apply bounded_intro; [|lia].
    assert (Zpos (digits2_pos p) <= 24)%Z by (apply digits_le; lia).
    unfold SpecFloat.fexp, SpecFloat.emin. destruct Hn as [->|Hn]; [lia|].
    assert (23 < Zpos (digits2_pos p))%Z by (apply digits_ge; lia). lia. }
  exists (S754_finite false p e), (inject_Z (Zpos p) * 2 ^ e).
  assert (float32 (S754_finite false p e) (inject_Z (Zpos p) * 2 ^ e)) as Fp.
  { split; [assumption|]. eexists. split; [reflexivity|reflexivity]. }
  split; [assumption|]. rewrite <- Ep. pose proof (pow_pos e) as Pe. split.
  { rewrite Eq. rewrite inject_Z_plus. change (inject_Z 1) with 1. lra. }
  split.
  { cbn [even_mantissa]. rewrite <- Ep, Z.even_add, He. discriminate. }
  intros h w Hh Hlw.
  destruct (on_step 24 128 ltac:(lia) w e (float32_fits h w Hh)) as [(n & En)|[Hem Hw']].
  - rewrite En in Hlw |- *. rewrite Eq in Hlw. apply Qmult_lt_r in Hlw; [|assumption]. rewrite <- Zlt_Qlt in Hlw.
    apply Qmult_le_compat_r; [|lra]. rewrite <- Zle_Qle. lia.
  - destruct Hn as [->|Hn]; [exfalso; unfold SpecFloat.emin in Hem; lia|]. exfalso.
    assert (2 ^ (24 - 1 + e) <= q); [|lra]. rewrite pow_plus, Eq. apply Qmult_le_compat_r; [|lra].
    change (2 ^ (24 - 1)) with (inject_Z (2 ^ 23)). rewrite <- Zle_Qle. assumption.
Qed.

Lemma between a b c x : a < b -> b < c -> Qabs (a - x) == Qabs (c - x) -> Qabs (b - x) < Qabs (a - x).
Proof.
  intros H1 H2 H.
  assert (x == (a + c) * (1 # 2)) as Ex.
  { destruct (Qlt_le_dec (a - x) 0) as [Ha|Ha]; [rewrite (Qabs_neg (a - x)) in H by lra|rewrite (Qabs_pos (a - x)) in H by assumption];
    (destruct (Qlt_le_dec (c - x) 0) as [Hc|Hc]; [rewrite (Qabs_neg (c - x)) in H by lra|rewrite (Qabs_pos (c - x)) in H by assumption]); lra. }
  rewrite Ex. assert (a - (a + c) * (1 # 2) <= 0) as Hn by lra. rewrite (Qabs_neg _ Hn). apply Qabs_Qlt_condition. split; lra.
Qed.
Lemma clash_pos f g x q w : float32 f q -> float32 g w -> 0 <= q -> q < w -> Qabs (q - x) == Qabs (w - x) -> even_mantissa f -> even_mantissa g ->
  exists h v, float32 h v /\ Qabs (v - x) < Qabs (q - x).
Proof.
  intros Hf Hg H0 Hlt E Ef Eg. destruct (next_float f q Hf H0 Ef) as (h & v & Hh & Hv & Ho & Hmin).
  specialize (Hmin g w Hg Hlt). destruct (Qlt_le_dec v w) as [Hvw|Hvw].
  - exists h, v. split; [assumption|]. now apply (between q v w).
  - exfalso. assert (v == w) as Evw by lra. pose proof (same_float _ _ _ _ Hh Hg Evw) as F. apply feq_true in F as [->|(s & t & -> & ->)]; [contradiction|]. apply Ho. exact I.
Qed.
Lemma clash f g x q w : float32 f q -> float32 g w -> q < w -> Qabs (q - x) == Qabs (w - x) -> even_mantissa f -> even_mantissa g ->
  exists h v, float32 h v /\ Qabs (v - x) < Qabs (q - x).
Proof.
  intros Hf Hg Hlt E Ef Eg. destruct (Qlt_le_dec q 0) as [Hq|Hq]; [|now apply (clash_pos f g x q w)].
  destruct (Qlt_le_dec 0 w) as [Hw|Hw].
  - exists (S754_zero false), 0. split; [apply float32_zero|]. now apply (between q 0 w).
  - assert (forall a, Qabs (- a - - x) == Qabs (a - x)) as A.
    { intros a. setoid_replace (- a - - x) with (- (a - x)) by ring. apply Qabs_opp. }
    destruct (clash_pos (SFopp g) (SFopp f) (- x) (- w) (- q)) as (h & v & Hh & Hv).
    + now apply float32_opp.
    + now apply float32_opp.
    + lra.
    + lra.
    + rewrite !A. now rewrite E.
    + destruct g; assumption.
    + destruct f; assumption.
    + exists (SFopp h), (- v). split; [now apply float32_opp|].
      assert (Qabs (- v - x) == Qabs (v - - x)) as B by (setoid_replace (- v - x) with (- (v - - x)) by ring; apply Qabs_opp).
      rewrite B, E, <- (A w). assumption.
Qed.

Lemma rounded32_proper x y f : x == y -> rounded32 x f -> rounded32 y f.
Proof.
  intros E. assert (Qabs x == Qabs y) as Ea by now rewrite E.
  assert (overflows32 x <-> overflows32 y) as Ho by (unfold overflows32; split; intros; lra).
  assert (forall q, Qabs (q - x) == Qabs (q - y)) as Ed by (intros; now rewrite E).
  assert (forall q (P : Prop), (forall g v, float32 g v -> Qabs (q - x) <= Qabs (v - x) /\ (Qabs (q - x) == Qabs (v - x) -> v == q \/ P)) ->
    (forall g v, float32 g v -> Qabs (q - y) <= Qabs (v - y) /\ (Qabs (q - y) == Qabs (v - y) -> v == q \/ P))) as Hm.
  { intros q P H g v Hg. destruct (H g v Hg) as [H1 H2]. pose proof (Ed q) as D1. pose proof (Ed v) as D2. split; [lra|]. intros Heq. apply H2. lra. }
  assert (x < 0 <-> y < 0) as Hs by (split; intros; lra).
  destruct f as [s|s| |s m e]; cbn [rounded32].
  - intros [H (q & Hq & Hx)]. split; [tauto|]. exists q. split; [assumption|]. exact (Hm _ _ Hx).
  - tauto.
  - tauto.
  - intros [H (q & Hq & Hx)]. split; [tauto|]. exists q. split; [assumption|]. exact (Hm _ _ Hx).
Qed.

Lemma rounded32_unique x f g : rounded32 x f -> rounded32 x g -> negative f = negative g -> f = g.
Proof.
  assert (forall f g, (match f with S754_zero _ | S754_finite _ _ _ => True | _ => False end) ->
     (match g with S754_zero _ | S754_finite _ _ _ => True | _ => False end) -> rounded32 x f -> rounded32 x g -> negative f = negative g -> f = g) as Fin.
  { clear f g. intros f g Hf Hg Rf Rg Hn.
    assert (exists q, float32 f q /\ forall h v, float32 h v -> Qabs (q - x) <= Qabs (v - x) /\ (Qabs (q - x) == Qabs (v - x) -> v == q \/ even_mantissa f)) as (q & Fq & Mq)
      by (destruct f; try contradiction; exact (proj2 Rf)).
    assert (exists q, float32 g q /\ forall h v, float32 h v -> Qabs (q - x) <= Qabs (v - x) /\ (Qabs (q - x) == Qabs (v - x) -> v == q \/ even_mantissa g)) as (w & Fw & Mw)
      by (destruct g; try contradiction; exact (proj2 Rg)).
    clear Rf Rg.
    pose proof (Mq g w Fw) as [L1 T1]. pose proof (Mw f q Fq) as [L2 T2].
    assert (Qabs (q - x) == Qabs (w - x)) as E by lra.
    assert (q == w) as Eqw.
    { destruct (T1 E) as [H|Ef]; [now symmetry|]. destruct (T2 (Qeq_sym _ _ E)) as [H|Eg]; [assumption|].
      destruct (Q_dec q w) as [[H|H]|H]; [exfalso|exfalso|assumption].
      - destruct (clash f g x q w Fq Fw H E Ef Eg) as (h & v & Hh & Hv). pose proof (proj1 (Mq h v Hh)). lra.
      - destruct (clash g f x w q Fw Fq H (Qeq_sym _ _ E) Eg Ef) as (h & v & Hh & Hv). pose proof (proj1 (Mw h v Hh)). lra. }
    pose proof (same_float _ _ _ _ Fq Fw Eqw) as F. apply feq_true in F as [->|(s & t & -> & ->)]; [reflexivity|].
    cbn [negative] in Hn. now subst. }
  intros Rf Rg Hn.
  destruct f as [s|s| |s m e]; [| |contradiction Rf|]; destruct g as [s'|s'| |s' m' e']; try contradiction Rg;
    try (now apply Fin); try (exfalso; cbn [rounded32] in Rf, Rg; tauto).
  cbn [negative] in Hn. now subst.
Qed.

(** * The text *)
Lemma read_split t : rust_f32_read t = let '(s, b) := sign_split t in read_unsigned s b.
Proof.
  unfold rust_f32_read, sign_split. destruct t as [|c t]; [reflexivity|].
  destruct c as [|p]; [reflexivity|]. do 6 (destruct p as [p|p|]; try reflexivity).
Qed.
Lemma word_no_sign b w : same_ignoring_case b w -> match w with [] => False | c :: _ => (97 <= c)%N end -> no_sign b.
Proof.
  intros E Hw. destruct b as [|c b]; [exact I|]. destruct w as [|d w]; [contradiction|]. unfold same_ignoring_case in E. cbn [map] in E. injection E as E _.
  unfold lower in E. cbn. destruct ((65 <=? c) && (c <=? 90))%N eqn:E1, ((65 <=? d) && (d <=? 90))%N eqn:E2; lia.
Qed.

Theorem f32_read_iff t f : rust_f32_read t = Some f <-> text_of_float t f.
Proof.
  rewrite read_split. unfold text_of_float. split.
  - destruct (sign_split_total t) as (neg & b & -> & sg & Hsg & ->). rewrite read_unsigned_iff.
    intros [(n & e & (ip & fp & ex & k & Hex & Ht & Hd & ->) & ->)|[[H ->]|[H ->]]].
    + left. exists neg, (inject_Z (Z.of_N n) * 10 ^ (k - Z.of_nat (List.length fp))). split; [|apply decimal_rounded].
      exists sg, ip, fp, ex, n, k. split; [assumption|]. split; [assumption|]. split; [|split; [assumption|reflexivity]].
      destruct Ht as [[-> ->]| ->]; auto.
    + right; left. exists neg. split; [|reflexivity]. exists sg, b. auto.
    + right; right. split; [|reflexivity]. exists sg, b, neg. auto.
  - intros [(neg & x & (sg & ip & fp & ex & n & k & Hsg & Hex & Ht & Hd & Ex) & R & Hn)|[(neg & (sg & w & -> & Hsg & H) & ->)|[(sg & w & neg & -> & Hsg & H) ->]]].
    + assert (exists b, t = sg ++ b /\ unsigned_decimal b n (k - Z.of_nat (List.length fp))) as (b & -> & Hb).
      { destruct Ht as [[-> ->]| ->]; eexists; (split; [reflexivity|]).
        - exists ip, [], ex, k. auto 6.
        - exists ip, fp, ex, k. auto 6. }
      assert (no_sign b) as Hns.
      { destruct (decimal_head _ _ _ Hb) as (c & r & -> & Hc). cbn. destruct Hc as [Hc|Hc]; [apply is_digit_iff in Hc|]; lia. }
      rewrite (proj2 (sign_split_iff (sg ++ b) neg b Hns)) by eauto. apply read_unsigned_iff. left. exists n, (k - Z.of_nat (List.length fp))%Z. split; [assumption|].
      destruct (decimal_rounded neg n (k - Z.of_nat (List.length fp))) as [R' Hn'].
      apply (rounded32_unique (signed neg x)); [assumption| |congruence].
      revert R'. apply rounded32_proper. destruct neg; cbn [signed]; now rewrite Ex.
    + rewrite (proj2 (sign_split_iff (sg ++ w) neg w ltac:(destruct H as [H|H]; apply (word_no_sign _ _ H); vm_compute; congruence))) by eauto.
      apply read_unsigned_iff. auto.
    + rewrite (proj2 (sign_split_iff (sg ++ w) neg w ltac:(apply (word_no_sign _ _ H); vm_compute; congruence))) by eauto.
      apply read_unsigned_iff. auto.
Qed.

(** * Coordinates: integers as well *)
Lemma signed_decimal t z : signed_text t z -> exists neg, decimal_text t neg (inject_Z (Z.abs z)) /\ z = cond_Zopp neg (Z.abs z).
Proof.
  assert (forall sg neg b n, sign_text sg neg -> denotes 10 b n -> decimal_text (sg ++ b) neg (inject_Z (Z.of_N n))) as A.
  { intros sg neg b n Hs Hd. exists sg, b, [], [], n, 0%Z. split; [assumption|]. split; [left; auto|]. rewrite !app_nil_r.
    split; [left; auto|]. split; [assumption|]. cbn. ring. }
  unfold signed_text, unsigned_text. intros H.
  assert (exists n sg neg b, t = sg ++ b /\ sign_text sg neg /\ denotes 10 b n /\ z = cond_Zopp neg (Z.of_N n)) as (n & sg & neg & b & -> & Hs & Hd & ->).
  { unfold sign_text. destruct H as [(n & -> & [H|(b & -> & H)])|(b & n & -> & -> & H)].
    - exists n, [], false, t. auto 6.
    - exists n, (lit "+"), false, b. auto 6.
    - exists n, (lit "-"), true, b. auto 8. }
  exists neg. replace (Z.abs (cond_Zopp neg (Z.of_N n))) with (Z.of_N n) by (destruct neg; cbn; lia). auto.
Qed.
Lemma rounded_zero x s : rounded32 x (S754_zero s) -> Qabs x < 1.
Proof.
  intros [_ (q & [_ (w & Hw & Ew)] & H)]. cbn [value] in Hw. injection Hw as <-.
  destruct (Qlt_le_dec (Qabs x) 1) as [|Hx]; [assumption|exfalso].
  assert (exists g v, float32 g v /\ Qabs (v - x) < Qabs x) as (g & v & Hg & Hv).
  { destruct (Qlt_le_dec x 0) as [Hn|Hn].
    - exists (f32_of_Z (-1)), (-1). split; [split; [reflexivity|]; eexists; split; [vm_compute; reflexivity|reflexivity]|].
      rewrite (Qabs_neg x) in * by lra. rewrite Qabs_pos by lra. lra.
    - exists (f32_of_Z 1), 1. split; [split; [reflexivity|]; eexists; split; [vm_compute; reflexivity|reflexivity]|].
      rewrite (Qabs_pos x) in * by lra. rewrite Qabs_neg by lra. lra. }
  destruct (H g v Hg) as [H1 _]. assert (Qabs (q - x) == Qabs x) as E by (rewrite <- Ew; setoid_replace (0 - x) with (- x) by ring; apply Qabs_opp). lra.
Qed.
Lemma rounded_zero_sign x s s' : rounded32 x (S754_zero s) -> rounded32 x (S754_zero s').
Proof.
  cbn [rounded32]. intros [Ho (q & [_ (w & Hw & Ew)] & H)]. split; [assumption|]. exists q. split; [|exact H].
  split; [reflexivity|]. cbn [value] in *. exists w. auto.
Qed.
Lemma decimal_read t neg x : decimal_text t neg x -> exists f, rust_f32_read t = Some f /\ rounded32 (signed neg x) f /\ negative f = neg.
Proof.
  intros H. pose proof H as (sg & ip & fp & ex & n & k & Hsg & Hex & Ht & Hd & Ex).
  destruct (decimal_rounded neg n (k - Z.of_nat (List.length fp))) as [R N].
  exists (f32_of_decimal neg n (k - Z.of_nat (List.length fp))).
  assert (rounded32 (signed neg x) (f32_of_decimal neg n (k - Z.of_nat (List.length fp)))) as R'.
  { revert R. apply rounded32_proper. destruct neg; cbn [signed]; now rewrite Ex. }
  split; [|auto]. apply f32_read_iff. left. exists neg, x. auto.
Qed.

Theorem iof_read_rounded t i neg x : rust_iof_read t = Some i -> decimal_text t neg x -> rounded32 (signed neg x) (f32_of_iof i).
Proof.
  intros Hi Hx. destruct (decimal_read _ _ _ Hx) as (f & Hf & R & _).
  destruct (match f with S754_zero true => true | _ => false end) eqn:Ez.
  2:{ rewrite (rust_iof_read_value t i f Hi Hf); [assumption|]. intros ->. discriminate. }
  destruct f as [[|]|s| |s m e]; try discriminate. clear Ez.
  unfold rust_iof_read in Hi. destruct (parse_i32 t) as [z|] eqn:Ep; [|rewrite Hf in Hi; injection Hi as <-; exact R].
  injection Hi as <-. cbn [f32_of_iof]. apply parse_i32_iff in Ep as [Ep _].
  destruct (signed_decimal _ _ Ep) as (neg' & Hd & Ez). destruct (decimal_read _ _ _ Hd) as (f' & Hf' & R' & _).
  rewrite Hf in Hf'. injection Hf' as <-. apply rounded_zero in R'.
  assert (Qabs (signed neg' (inject_Z (Z.abs z))) == inject_Z (Z.abs z)) as Ea.
  { destruct neg'; cbn [signed]; [rewrite Qabs_opp|]; apply Qabs_pos; change 0 with (inject_Z 0); rewrite <- Zle_Qle; lia. }
  rewrite Ea in R'. change 1 with (inject_Z 1) in R'. rewrite <- Zlt_Qlt in R'. assert (z = 0)%Z as -> by lia.
  exact (rounded_zero_sign _ _ false R).
Qed.
Theorem iof_read_float t f : rust_iof_read t = Some (IFloat f) <-> text_of_float t f /\ ~ exists z, signed_text t z /\ (- 2 ^ 31 <= z < 2 ^ 31)%Z.
Proof.
  rewrite <- f32_read_iff. unfold rust_iof_read. destruct (parse_i32 t) as [z|] eqn:Ep.
  - split; [discriminate|]. intros [_ H]. exfalso. apply H. exists z. apply parse_i32_iff in Ep as [E1 E2]. split; [assumption|]. change (2 ^ 31)%Z with 2147483648%Z. lia.
  - split.
    + intros H. split; [destruct (rust_f32_read t); [cbn in H; congruence|discriminate]|]. intros (z & H1 & H2). change (2 ^ 31)%Z with 2147483648%Z in H2.
      assert (parse_i32 t = Some z) by (apply parse_i32_iff; split; [assumption|lia]). congruence.
    + intros [-> _]. reflexivity.
Qed.
Theorem iof_read_total t : (exists i, rust_iof_read t = Some i) <-> exists f, text_of_float t f.
Proof.
  split.
  - intros (i & H). unfold rust_iof_read in H. destruct (parse_i32 t) as [z|] eqn:Ep.
    + apply parse_i32_iff in Ep as [Ep _]. destruct (signed_decimal _ _ Ep) as (neg & Hd & _). destruct (decimal_read _ _ _ Hd) as (f & Hf & _).
      exists f. now apply f32_read_iff.
    + destruct (rust_f32_read t) as [f|] eqn:Ef; [|discriminate]. exists f. now apply f32_read_iff.
  - intros (f & H). apply f32_read_iff in H. unfold rust_iof_read. rewrite H. destruct (parse_i32 t); eexists; reflexivity.
Qed.
Lemma rounded_exact x f g : rounded32 x f -> float32 g x -> same_value f x.
Proof.
  intros R Hg.
  assert (Qabs x < 2 ^ 128 - 2 ^ 103) as Hs.
  { destruct Hg as [V (w & Hw & Ew)]. rewrite <- Ew. destruct g as [s|s| |s m e]; cbn [value] in Hw; try discriminate; injection Hw as <-; [vm_compute; reflexivity|].
    change (bounded 24 128 m e = true) in V. pose proof (bounded_inv 24 128 m e V) as [_ B2]. pose proof (digits_le_prec 24 128 m e V) as [B3 _]. pose proof (digits_bounds m) as D.
    assert (2 ^ Zpos (digits2_pos m) <= 2 ^ 24)%Z as P by (apply Z.pow_le_mono_r; lia).
    rewrite Qabs_Qmult, (Qabs_pos (2 ^ e)) by (apply Qlt_le_weak, pow_pos).
    assert (Qabs (inject_Z (if s then Zneg m else Zpos m)) == inject_Z (Zpos m)) as Ea by (destruct s; reflexivity).
    apply Qle_lt_trans with (inject_Z (2 ^ 24 - 1) * 2 ^ 104); [|reflexivity].
    setoid_replace (Qabs (inject_Z (if s then Zneg m else Zpos m))) with (inject_Z (Zpos m)) by (destruct s; reflexivity).
    apply Qle_trans with (inject_Z (2 ^ 24 - 1) * 2 ^ e).
    - apply Qmult_le_compat_r; [|apply Qlt_le_weak, pow_pos]. rewrite <- Zle_Qle. lia.
    - apply Qmult_le_l; [reflexivity|]. apply pow_mono. lia. }
  assert (~ overflows32 x) as Ho by (unfold overflows32; lra).
  assert (exists q, float32 f q /\ forall h v, float32 h v -> Qabs (q - x) <= Qabs (v - x)) as (q & [V (w & Hw & Ew)] & M).
  { destruct f as [s|s| |s m e]; cbn [rounded32] in R; try tauto; destruct R as [_ (q & Fq & M)]; exists q; (split; [assumption|]); intros h v Hv; exact (proj1 (M h v Hv)). }
  specialize (M g x Hg). exists w. split; [assumption|]. rewrite Ew.
  assert (Qabs (x - x) == 0) as E0 by (setoid_replace (x - x) with 0 by ring; reflexivity). rewrite E0 in M.
  apply Qabs_Qle_condition in M. lra.
Qed.
