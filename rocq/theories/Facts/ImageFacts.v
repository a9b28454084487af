(** Images. *)
Require Import Coq.Lists.List Coq.NArith.NArith Coq.Arith.Arith Coq.Bool.Bool Coq.micromega.Lia.
Require Import Verif.Model.Base Verif.Model.Num Verif.Model.Names Verif.Model.Color Verif.Model.Component Verif.Model.Image
  Verif.Spec.ImageSpec.
Import ListNotations.
Local Open Scope N_scope.


Ltac eqs := repeat match goal with
  | H : (_ && _)%bool = true |- _ => apply andb_true_iff in H as [? ?]
  | H : (_ =? _) = true |- _ => apply N.eqb_eq in H; subst
  end.

Lemma codec_exact v c : c <> CUnknown -> (guess_codec_bytes v = c <-> (12 <= length v)%nat /\ magic c v).
Proof.
  intros Hc.
  destruct v as [|b0 [|b1 [|b2 [|b3 [|b4 [|b5 [|b6 [|b7 [|b8 [|b9 [|b10 [|b11 v]]]]]]]]]]]];
    try (cbn [guess_codec_bytes length]; split; [intros <-; congruence|intros [H _]; lia]).
  assert ((12 <= length (b0 :: b1 :: b2 :: b3 :: b4 :: b5 :: b6 :: b7 :: b8 :: b9 :: b10 :: b11 :: v))%nat) as Hl by (cbn; lia).
  unfold guess_codec_bytes. split.
  - intros E. split; [assumption|].
    repeat match type of E with
    | (if ?b then _ else _) = _ => destruct b eqn:?
    end; subst c; try congruence; eqs; cbn [magic]; unfold has_at; cbn [firstn skipn length]; auto.
  - intros [_ H].
    destruct c; cbn [magic has_at firstn skipn length] in H; unfold has_at in H; cbn [firstn skipn length] in H; try congruence.
    + injection H as -> -> -> ->. reflexivity.
    + injection H as -> ->. reflexivity.
    + destruct H as [H|H]; injection H as -> -> -> ->; reflexivity.
    + injection H as -> -> -> ->. reflexivity.
    + destruct H as [H H']. injection H as -> -> -> ->. injection H' as -> -> -> ->. reflexivity.
    + injection H as -> ->. reflexivity.
Qed.

Lemma codec_prefix v w : firstn 12 v = firstn 12 w -> guess_codec_bytes v = guess_codec_bytes w.
Proof.
  intros H.
  assert (forall v, guess_codec_bytes v = guess_codec_bytes (firstn 12 v)) as X.
  { intros u. destruct u as [|b0 [|b1 [|b2 [|b3 [|b4 [|b5 [|b6 [|b7 [|b8 [|b9 [|b10 [|b11 u]]]]]]]]]]]]; reflexivity. }
  rewrite (X v), (X w). now rewrite H.
Qed.

Section H.
Context (D : decoder) (more : bool).

Lemma tint_len mul c : forall n px, length px = (4 * n)%nat -> exists px', tint mul c px = Ok px' /\ length px' = length px.
Proof.
  induction n as [|n IH]; intros px H.
  - destruct px; [|discriminate]. exists []. auto.
  - destruct px as [|p0 [|p1 [|p2 [|p3 px]]]]; cbn [length] in H; try lia.
    destruct (IH px) as (t & E & L); [lia|]. cbn [tint]. rewrite E. cbn [bind]. eexists. split; [reflexivity|]. cbn [length]. congruence.
Qed.
Lemma tint_nth mul c : forall n px px', length px = (4 * n)%nat -> tint mul c px = Ok px' ->
  forall k p0 p1 p2 p3, firstn 4 (skipn (4 * k) px) = [p0; p1; p2; p3] ->
    firstn 4 (skipn (4 * k) px') = [mul p0 (cr c); mul p1 (cg c); mul p2 (cb c); mul p3 (ca c)].
Proof.
  induction n as [|n IH]; intros px px' H E k p0 p1 p2 p3 K.
  - destruct px; [|discriminate]. rewrite skipn_nil in K. discriminate.
  - destruct px as [|q0 [|q1 [|q2 [|q3 px]]]]; cbn [length] in H; try lia.
    cbn [tint] in E. destruct (tint mul c px) as [t| |] eqn:Et; cbn [bind] in E; try discriminate. injection E as <-.
    destruct k as [|k].
    + cbn in K. injection K as -> -> -> ->. reflexivity.
    + replace (4 * S k)%nat with (S (S (S (S (4 * k))))) in * by lia. cbn [skipn] in *. eapply (IH px t); [lia|assumption|eassumption].
Qed.

Lemma decode_bytes_ok v o : rgba8 D -> exists r, decode_bytes D v o = Ok r.
Proof.
  intros HD. unfold decode_bytes. destruct o as [c|]; [|eauto]. destruct (decode_grey D v) as [[[px w] h]|] eqn:E; [|eauto].
  destruct (HD v px w h E) as (n & Hn). destruct (tint_len (channel_mul D) c n px Hn) as (px' & -> & _). cbn. eauto.
Qed.

Definition content (o : option color) (s : list N * bool) : data_or_bitmap :=
  match (if snd s then decodes_to D more o (fst s) else None) with
  | Some (px, w, h) => Bitmap px w h
  | None => Data (fst s)
  end.

Definition good (i : image) : Prop :=
  (im_state i = Loaded -> exists v, im_data i = Data v) /\ (im_state i = Decoded -> exists px w h, im_data i = Bitmap px w h).

Lemma call_step i c s : rgba8 D -> im_data i = content (im_color i) s -> good i ->
  exists r i', do_call D more i c = (r, i') /\ r <> Panic /\ im_color i' = im_color i /\
    im_data i' = content (im_color i) (seen s c) /\ good i'.
Proof.
  intros HD Hd [G1 G2]. destruct c as [[v|]|]; cbn [do_call].
  - unfold load. do 2 eexists. split; [reflexivity|]. split; [discriminate|]. split; [reflexivity|]. split; [reflexivity|].
    split; cbn; intros E; [eauto|discriminate].
  - unfold load. do 2 eexists. split; [reflexivity|]. split; [discriminate|]. split; [reflexivity|]. split; [exact Hd|].
    split; cbn; intros E; discriminate.
  - unfold decode. destruct (im_data i) as [raw|px w h] eqn:E.
    + assert (raw = fst s) as ->.
      { unfold content in Hd. destruct (if snd s then _ else _) as [[[? ?] ?]|]; [discriminate|]. now injection Hd. }
      assert (im_state i <> Decoded) as Hnd by (intros X; destruct (G2 X) as (? & ? & ? & ?); discriminate).
      cbn [seen]. unfold content. cbn [fst snd]. unfold decodes_to.
      destruct (format_io_error D (fst s)).
      * do 2 eexists. split; [reflexivity|]. split; [discriminate|]. split; [reflexivity|]. split; [exact E|].
        split; intros X; [eauto|contradiction].
      * rewrite <- negb_orb. destruct (more || format_is_png D (fst s)); cbn [negb].
        -- destruct (decode_bytes_ok (fst s) (im_color i) HD) as (r & ->). destruct r as [[[px w] h]|].
           ++ do 2 eexists. split; [reflexivity|]. split; [discriminate|]. split; [reflexivity|]. split; [reflexivity|].
              split; cbn; intros X; [discriminate|eauto].
           ++ do 2 eexists. split; [reflexivity|]. split; [discriminate|]. split; [reflexivity|]. split; [exact E|].
              split; cbn; intros X; discriminate.
        -- do 2 eexists. split; [reflexivity|]. split; [discriminate|]. split; [reflexivity|]. split; [exact E|].
           split; cbn; intros X; discriminate.
    + do 2 eexists. split; [reflexivity|]. split; [discriminate|]. split; [reflexivity|].
      assert (content (im_color i) (seen s CallDecode) = content (im_color i) s) as ->.
      { unfold content in *. cbn [seen fst snd]. destruct (snd s); [reflexivity|discriminate]. }
      split; [congruence|]. split; [|rewrite E; eauto]. intros X. destruct (G1 X). congruence.
Qed.

Lemma run_from h : rgba8 D -> forall i s, im_data i = content (im_color i) s -> good i ->
  exists i', run D more i h = Ok i' /\ im_color i' = im_color i /\
    im_data i' = content (im_color i) (fold_left seen h s) /\ good i'.
Proof.
  intros HD. induction h as [|c h IH]; intros i s Hd Hg.
  - exists i. auto.
  - destruct (call_step i c s HD Hd Hg) as (r & i' & E & Hr & Hc & Hd' & Hg'). cbn [run fold_left]. rewrite E.
    rewrite <- Hc in Hd'. destruct (IH i' (seen s c) Hd' Hg') as (i2 & E2 & C2 & D2 & G2). exists i2.
    rewrite C2, <- Hc. rewrite Hc. split; [destruct r; [exact E2|exact E2|congruence]|]. split; [congruence|].
    split; [rewrite D2, Hc; reflexivity|assumption].
Qed.

End H.

(** The last successful load of a history. *)
Definition quiet (h : list call) : Prop := forall v, ~ In (CallLoad (Some v)) h.
Lemma last_load (h : list call) : quiet h \/ exists h1 v h2, h = h1 ++ CallLoad (Some v) :: h2 /\ quiet h2.
Proof.
  induction h as [|c h [IH|(h1 & v & h2 & -> & IH)]].
  - left. intros v [].
  - destruct c as [[v|]|].
    + right. exists [], v, h. auto.
    + left. intros v [H|H]; [discriminate|now apply (IH v)].
    + left. intros v [H|H]; [discriminate|now apply (IH v)].
  - right. exists (c :: h1), v, h2. auto.
Qed.
Lemma quiet_fold h : quiet h -> forall s, fst (fold_left seen h s) = fst s /\
  (snd (fold_left seen h s) = true -> snd s = true \/ In CallDecode h).
Proof.
  induction h as [|c h IH]; intros Hq s; [cbn; auto|]. cbn [fold_left].
  assert (quiet h) as Hq' by (intros v Hv; apply (Hq v); now right).
  destruct (IH Hq' (seen s c)) as [-> H2]. destruct c as [[v|]|].
  - exfalso. apply (Hq v). now left.
  - split; [reflexivity|]. intros H. destruct (H2 H); [now left|right; now right].
  - split; [reflexivity|]. intros _. right. now left.
Qed.
Lemma history_load h : snd (history h) = true ->
  (quiet h /\ fst (history h) = []) \/
  exists h1 h2, h = h1 ++ CallLoad (Some (fst (history h))) :: h2 /\ In CallDecode h2 /\ quiet h2.
Proof.
  intros H. unfold history in *. destruct (last_load h) as [Hq|(h1 & v & h2 & -> & Hq)].
  - left. split; [assumption|]. apply (quiet_fold h Hq ([], false)).
  - right. rewrite fold_left_app in *. cbn [fold_left seen] in *. destruct (quiet_fold h2 Hq (v, false)) as [-> H2].
    exists h1, h2. cbn [fst]. split; [reflexivity|]. destruct (H2 H); [discriminate|auto].
Qed.
