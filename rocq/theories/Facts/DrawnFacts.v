Require Import Coq.Lists.List Coq.Arith.Arith Coq.Bool.Bool Coq.micromega.Lia Coq.Floats.SpecFloat.
Require Import Verif.Model.Base Verif.Model.Float Verif.Model.Num Verif.Model.Point Verif.Model.Contour Verif.Model.Reverse Verif.Model.Refigure Verif.Model.Parts
  Verif.Spec.ContourSpec Verif.Spec.OutlineSpec Verif.Spec.GlyphSpec Verif.Spec.DrawnSpec Verif.Facts.ContourFacts Verif.Facts.RefigureFacts.
Import ListNotations.
Local Open Scope nat_scope.

Section Drawn.
Context {PD : Type}.
Implicit Types c : list (point PD).

(** What is drawn of a segment after saving. *)
Definition filed (s : segment) := match sg_kind s with Curve => drawn s | _ => (sg_from s, sg_from s, sg_to s, sg_to s) end.

Lemma nth_segs_from (l : list (point PD)) : forall p i, nth_error (segs_from p l) i =
  match nth_error (p :: l) i, nth_error l i with Some a, Some b => Some (seg_between a b) | _, _ => None end.
Proof.
  induction l as [|q l IH]; intros p [|i]; [reflexivity|cbn; now destruct (nth_error _ i)|reflexivity|].
  cbn [segs_from nth_error]. rewrite IH. reflexivity.
Qed.
Lemma segs_from_length (l : list (point PD)) : forall p, length (segs_from p l) = length l.
Proof. induction l as [|q l IH]; intros p; [reflexivity|]. cbn [segs_from length]. now rewrite IH. Qed.

Lemma next_small n i : S i < n -> next_of n i = S i.
Proof. intros H. unfold next_of. rewrite Nat.mod_small; lia. Qed.
Lemma next_last n i : S i = n -> next_of n i = 0.
Proof. intros <-. unfold next_of. rewrite Nat.add_1_r. apply Nat.mod_same. lia. Qed.
Lemma next_lt n i : i < n -> next_of n i < n.
Proof. intros H. unfold next_of. apply Nat.mod_upper_bound. lia. Qed.

Lemma closed_length c : length (closed_segments c) = length c.
Proof. destruct c as [|p t]; [reflexivity|]. cbn [closed_segments]. rewrite segs_from_length, app_length. cbn. lia. Qed.
Lemma nth_closed c i p q : nth_error c i = Some p -> nth_error c (next_of (length c) i) = Some q ->
  nth_error (closed_segments c) i = Some (seg_between p q).
Proof.
  intros Hp Hq. assert (i < length c) as Hi by (apply nth_error_Some; congruence).
  destruct c as [|x t]; [now destruct i|]. cbn [closed_segments]. rewrite nth_segs_from.
  change (x :: t ++ [x]) with ((x :: t) ++ [x]). rewrite (nth_error_app1 (x :: t)) by exact Hi. rewrite Hp.
  destruct (Nat.eq_dec (S i) (length (x :: t))) as [E|E].
  - rewrite next_last in Hq by exact E. cbn in Hq, E. rewrite nth_error_app2 by lia. replace (i - length t) with 0 by lia. cbn. injection Hq as ->. reflexivity.
  - rewrite next_small in Hq by (cbn in *; lia). cbn [nth_error] in Hq. cbn [length] in *. rewrite nth_error_app1 by lia. now rewrite Hq.
Qed.
Lemma open_length c : length (open_segments c) = length c - 1.
Proof. destruct c as [|p t]; [reflexivity|]. cbn [open_segments]. rewrite segs_from_length. cbn. lia. Qed.
Lemma nth_open c i p q : nth_error c i = Some p -> nth_error c (S i) = Some q -> nth_error (open_segments c) i = Some (seg_between p q).
Proof. intros Hp Hq. destruct c as [|x t]; [now destruct i|]. cbn [open_segments]. rewrite nth_segs_from, Hp. cbn in Hq. now rewrite Hq. Qed.

Lemma segments_open c : opened c -> segments c = open_segments c.
Proof. intros (p & q & t & -> & H). cbn [segments]. now rewrite H. Qed.
Lemma segments_closed c : ~ opened c -> segments c = closed_segments c.
Proof.
  intros H. destruct c as [|p [|q t]]; [reflexivity|reflexivity|]. cbn [segments]. destruct (ptype_eqb_spec (pptype p) Move) as [E|E]; [|reflexivity].
  exfalso. apply H. now exists p, q, t.
Qed.
Lemma opened_dec c : opened c \/ ~ opened c.
Proof.
  destruct c as [|p [|q t]]; [right; intros (?&?&?&?&_); discriminate|right; intros (?&?&?&?&_); discriminate|].
  destruct (ptype_eqb_spec (pptype p) Move) as [E|E]; [left; now exists p, q, t|right; intros (?&?&?&[= <- _ _]&?); contradiction].
Qed.

Lemma nth_some c i : i < length c -> exists p, nth_error c i = Some p.
Proof. intros H. destruct (nth_error c i) as [p|] eqn:E; [eauto|]. apply nth_error_None in E. lia. Qed.

Lemma seg_stored (p p' q q' : point PD) (a' : handle) : shown p' = shown p -> shown q' = shown q ->
  pa p' = (match pptype q with Curve => spot p (pa p) | _ => Colocated end) ->
  pb q' = (match pptype q with Curve => spot q (pb q) | _ => Colocated end) -> a' = pa p' ->
  drawn (seg_between (PD:=PD) p' q') = filed (seg_between p q).
Proof.
  intros Hp Hq Ha Hb _. unfold shown in *. unfold drawn, filed, seg_between. cbn [sg_from sg_out sg_in sg_to sg_kind].
  assert (px p' = px p /\ py p' = py p) as [-> ->] by (split; congruence).
  assert (px q' = px q /\ py q' = py q) as [-> ->] by (split; congruence).
  rewrite Ha, Hb. destruct (pptype q); try reflexivity.
  unfold drawn. cbn [sg_from sg_out sg_in sg_to]. destruct (pa p), (pb q); reflexivity.
Qed.

Lemma stored_opened c c' : stored_as c c' -> (opened c <-> opened c').
Proof.
  intros [Hl H]. destruct c as [|p [|q t]].
  - destruct c'; [tauto|discriminate].
  - destruct c' as [|p' [|q' t']]; try discriminate. split; intros (?&?&?&?&_); discriminate.
  - destruct c' as [|p' [|q' t']]; try discriminate.
    destruct (H 0 p q eq_refl) as (x & Hx & Hs & _); [rewrite next_small by (cbn; lia); reflexivity|]. cbn in Hx. injection Hx as <-.
    assert (pptype p' = pptype p) as E by (unfold shown in Hs; congruence).
    split; intros (?&?&?&[= <- <- <-]&Hm); repeat eexists; congruence.
Qed.

Lemma stored_drawing c c' : stored_as c c' -> drawing c' = map filed (segments c).
Proof.
  intros Hst. pose proof (stored_opened c c' Hst) as Ho. destruct Hst as [Hl H]. unfold drawing.
  assert (forall i p, nth_error c i = Some p -> exists q, nth_error c (next_of (length c) i) = Some q) as Hnx.
  { intros i p Hp. apply nth_some. apply next_lt. apply nth_error_Some. congruence. }
  apply nth_error_ext. intros i. destruct (opened_dec c) as [Hop|Hcl].
  - rewrite (segments_open c Hop), (segments_open c') by now apply Ho. rewrite !nth_error_map.
    destruct (lt_dec (S i) (length c)) as [Hi|Hi].
    + destruct (nth_some c i) as [p Hp]; [lia|]. destruct (nth_some c (S i) Hi) as [q Hq]. rewrite (nth_open c i p q Hp Hq).
      pose proof Hq as Hq2. rewrite <- (next_small (length c) i Hi) in Hq2. destruct (H i p q Hp Hq2) as (p' & Hp' & S1 & _ & S2 & _).
      destruct (Hnx _ _ Hq) as [r Hr]. destruct (H (S i) q r Hq Hr) as (q' & Hq' & T1 & _ & _ & T2).
      rewrite (nth_open c' i p' q' Hp' Hq'). cbn [option_map]. f_equal. eapply seg_stored; eauto.
    + assert (length (open_segments c) <= i /\ length (open_segments c') <= i) as [A B] by (rewrite !open_length; lia).
      apply nth_error_None in A, B. now rewrite A, B.
  - rewrite (segments_closed c Hcl), (segments_closed c') by tauto. rewrite !nth_error_map.
    destruct (lt_dec i (length c)) as [Hi|Hi].
    + destruct (nth_some c i Hi) as [p Hp]. destruct (Hnx i p Hp) as [q Hq]. rewrite (nth_closed c i p q Hp Hq).
      destruct (H i p q Hp Hq) as (p' & Hp' & S1 & _ & S2 & _). destruct (Hnx _ _ Hq) as [r Hr]. destruct (H _ q r Hq Hr) as (q' & Hq' & T1 & _ & _ & T2).
      rewrite <- Hl in Hq'. rewrite (nth_closed c' i p' q' Hp' Hq'). cbn [option_map]. f_equal. eapply seg_stored; eauto.
    + assert (length (closed_segments c) <= i /\ length (closed_segments c') <= i) as [A B] by (rewrite !closed_length; lia).
      apply nth_error_None in A, B. now rewrite A, B.
Qed.

Lemma closed_earlier c c1 : one_earlier c c1 -> one_earlier (closed_segments c) (closed_segments c1).
Proof.
  intros (x & m & -> & ->). destruct m as [|p m]; [exists (seg_between x x), []; split; reflexivity|].
  exists (seg_between x p), (segs_from p (m ++ [x])). split.
  - cbn [app closed_segments]. rewrite <- app_assoc. cbn [app]. rewrite segs_from_app. reflexivity.
  - reflexivity.
Qed.

Lemma curve_first_closed c p t : c = p :: t -> pptype p = Curve -> ~ opened c.
Proof. intros -> H (?&?&?&[= <- ->]&?). congruence. Qed.
Lemma earlier_closed c c1 : cubic_contour_form c -> ~ opened c -> one_earlier c c1 -> ~ opened c1.
Proof.
  intros (p & t & -> & Hp & Ht) Hc (x & m & E & ->) (x'&y'&r'&Er&Hm). assert (x' = x) as -> by congruence. assert (m <> []) as Hne by (destruct m; congruence). clear Er.
  destruct t as [|t0 t'].
  - destruct m as [|? [|]]; [contradiction|discriminate|discriminate].
  - destruct (exists_last (l := t0 :: t')) as (m' & y & Ey); [discriminate|]. rewrite Ey in *. change (p :: m' ++ [y]) with ((p :: m') ++ [y]) in E. apply app_inj_tail in E as [_ ->].
    apply Forall_app in Ht as [_ Ht]. inversion_clear Ht. destruct H as [H|H]; congruence.
Qed.

(** What is drawn after saving and opening. *)
Lemma restored_drawing c c' : cubic_contour_form c -> contour_restored c c' -> same_drawing c (map filed (segments c)) (drawing c').
Proof.
  intros Hf [H1 H2]. pose proof Hf as (p & t & E & Hp & Ht).
  destruct (ptype_eqb_spec (pptype p) Curve) as [Ec|Ec].
  - pose proof (curve_first_closed c p t E Ec) as Hcl. destruct (H2 p t E Ec) as (c1 & He & Hs).
    split; [contradiction|]. intros _. rewrite (stored_drawing _ _ Hs), (segments_closed c Hcl), (segments_closed c1) by now apply (earlier_closed c c1).
    apply closed_earlier in He as (x & m & E1 & E2). rewrite E1, E2. rewrite map_app. exists (map filed m), [filed x]. split; reflexivity.
  - specialize (H1 p t E Ec). rewrite (stored_drawing _ _ H1). split; [reflexivity|]. intros _. exists (map filed (segments c)), []. split; [now rewrite app_nil_r|reflexivity].
Qed.

(** Counting curves. *)
Lemma sf_dec (x y : f32) : {x = y} + {x <> y}.
Proof. repeat decide equality. Qed.
Definition four_dec (x y : (f32 * f32) * (f32 * f32) * (f32 * f32) * (f32 * f32)) : {x = y} + {x <> y}.
Proof. repeat decide equality; apply sf_dec. Defined.
Definition bent (d : (f32 * f32) * (f32 * f32) * (f32 * f32) * (f32 * f32)) : nat :=
  match d with (a, b, c, d) => if four_dec (a, b, c, d) (a, a, d, d) then 0 else 1 end.
Definition bends l := list_sum (map bent l).
Lemma bent_straight s : bent (drawn s) = 0 <-> straight s.
Proof. unfold bent, straight, drawn. destruct (four_dec _ _) as [E|E]; split; intros H; auto; [discriminate|contradiction]. Qed.
Lemma bent_line (a b : f32 * f32) : bent (a, a, b, b) = 0.
Proof. unfold bent. destruct (four_dec _ _) as [E|E]; [reflexivity|contradiction]. Qed.
Lemma bends_app l l' : bends (l ++ l') = bends l + bends l'.
Proof. unfold bends. now rewrite map_app, list_sum_app. Qed.

Lemma filed_bends l : bends (map filed l) <= bends (map drawn l) /\
  (bends (map filed l) = bends (map drawn l) -> forall s, In s l -> sg_kind s <> Curve -> straight s).
Proof.
  induction l as [|s l [IH1 IH2]]; [split; [reflexivity|intros _ ? []]|]. unfold bends in *. cbn [map list_sum fold_right].
  assert (bent (filed s) <= bent (drawn s) /\ (bent (filed s) = bent (drawn s) -> sg_kind s <> Curve -> straight s)) as [A B].
  { unfold filed. destruct (sg_kind s); try (rewrite bent_line; split; [lia|intros E _; now apply bent_straight]). split; [reflexivity|intros _ X; congruence]. }
  change (fold_right Nat.add 0 (map bent (map filed l))) with (list_sum (map bent (map filed l))).
  change (fold_right Nat.add 0 (map bent (map drawn l))) with (list_sum (map bent (map drawn l))).
  split; [lia|]. intros E s' [<-|Hs']; [apply B; lia|apply IH2; [lia|exact Hs']].
Qed.

Lemma filed_same l : (forall s, In s l -> sg_kind s <> Curve -> straight s) -> map filed l = map drawn l.
Proof.
  intros H. apply map_ext_in. intros s Hs. specialize (H s Hs). unfold filed. unfold straight in H.
  destruct (sg_kind s); try reflexivity; symmetry; apply H; discriminate.
Qed.

Lemma same_bends c l l' : same_drawing c l l' -> bends l' = bends l.
Proof. intros [H1 H2]. destruct (opened_dec c) as [H|H]; [now rewrite (H1 H)|]. destruct (H2 H) as (a & b & -> & ->). rewrite !bends_app. lia. Qed.

Lemma saved_same_exact c c' : cubic_contour_form c -> contour_restored c c' ->
  (same_drawing c (drawing c) (drawing c') <-> forall s, In s (segments c) -> sg_kind s <> Curve -> straight s).
Proof.
  intros Hf Hr. pose proof (restored_drawing c c' Hf Hr) as Hd. split.
  - intros H. apply same_bends in H, Hd. unfold drawing at 2 in H. apply filed_bends. congruence.
  - intros H. apply filed_same in H. unfold drawing at 1. now rewrite <- H.
Qed.

(** Reversing. *)
Lemma drawn_stroke s s' : stroke s = stroke s' -> drawn s = drawn s'.
Proof. unfold stroke, drawn. intros [= -> -> -> ->]. reflexivity. Qed.
Lemma straight_stroke s s' : stroke s = stroke s' -> (straight s <-> straight s').
Proof. intros H. unfold straight. rewrite (drawn_stroke _ _ H). unfold stroke in H. now injection H as -> _ _ ->. Qed.
Lemma straight_flip s : straight (flip s) <-> straight s.
Proof. unfold straight, drawn, flip. cbn [sg_from sg_out sg_in sg_to]. split; intros [= A B]; now rewrite A, B. Qed.
Lemma map_drawn_stroke l l' : map stroke l = map stroke l' -> map drawn l = map drawn l'.
Proof.
  revert l'. induction l as [|s l IH]; intros [|s' l'] H; try discriminate; [reflexivity|]. cbn [map] in *.
  rewrite (drawn_stroke s s') by congruence. f_equal. apply IH. congruence.
Qed.

Lemma reversed_keeps dbg c c' : to_reversed dbg c = Ok c' -> (opened c <-> opened c').
Proof.
  intros H. destruct (opened_dec c) as [Ho|Hc].
  - split; [intros _|auto]. eapply reverse_keeps_open; eauto.
  - split; [contradiction|]. intros Ho. exfalso. destruct c as [|p t]; [discriminate|]. rewrite (to_reversed_closed dbg (p :: t) p t eq_refl Hc) in H. injection H as <-.
    destruct Ho as (x & y & r & E & Hm). cbn [map] in E. injection E as <- E. destruct t as [|q t]; [discriminate|]. apply Hc. exists p, q, t. auto.
Qed.

Lemma reversed_strokes dbg c c' : to_reversed dbg c = Ok c' ->
  map stroke (segments c') = rev (map (fun s => stroke (flip s)) (segments c)).
Proof.
  intros H. pose proof (reversed_keeps dbg c c' H) as Hk. destruct (opened_dec c) as [Ho|Hc].
  - rewrite (segments_open c Ho), (segments_open c') by now apply Hk. eapply reverse_open_strokes; eauto.
  - rewrite (segments_closed c Hc), (segments_closed c') by tauto. destruct c as [|p t]; [discriminate|].
    rewrite (to_reversed_closed dbg (p :: t) p t eq_refl Hc) in H. injection H as <-. cbn [map]. unfold closed_segments. rewrite <- strokes_rev. reflexivity.
Qed.
Lemma reversed_drawing dbg c c' : to_reversed dbg c = Ok c' -> drawing c' = drawing_backwards c.
Proof.
  intros H. apply reversed_strokes in H. unfold drawing, drawing_backwards. rewrite <- map_rev, <- (map_map flip drawn). apply map_drawn_stroke.
  rewrite H, map_map, map_rev. reflexivity.
Qed.

(** The kinds of the segments of a reversed contour, in the order of the original. *)
Lemma reversed_kinds_closed dbg c c' : ~ opened c -> to_reversed dbg c = Ok c' -> rev (map sg_kind (segments c')) = map pptype c.
Proof.
  intros Hc H. rewrite (segments_closed c') by (pose proof (reversed_keeps dbg c c' H); tauto).
  destruct c as [|p t]; [discriminate|]. rewrite (to_reversed_closed dbg (p :: t) p t eq_refl Hc) in H. injection H as <-.
  cbn [map closed_segments]. rewrite kinds_segs, map_app, map_map. cbn [map]. rewrite rev_app_distr. cbn [rev app]. f_equal.
  rewrite <- map_rev, rev_involutive. reflexivity.
Qed.
Lemma reversed_kinds_open dbg p m l c' : pptype p = Move -> to_reversed dbg (p :: m ++ [l]) = Ok c' ->
  rev (map sg_kind (segments c')) = kind_of (pb (hd l m)) (pa p) :: map pptype m.
Proof.
  intros Hp H. assert (opened (p :: m ++ [l])) as Ho by (destruct m as [|q m]; repeat eexists; assumption).
  rewrite (segments_open c') by now apply (reversed_keeps dbg _ c' H).
  rewrite to_reversed_open in H by assumption. destruct (dbg && _); [discriminate|]. injection H as <-. cbn [open_segments].
  rewrite kinds_segs, map_app, map_map. cbn [map]. rewrite rev_app_distr. cbn [rev app]. f_equal.
  rewrite <- map_rev, rev_involutive. reflexivity.
Qed.

Lemma reversed_bad_exact dbg c c' : cubic_contour_form c -> to_reversed dbg c = Ok c' ->
  ((exists s, In s (segments c') /\ sg_kind s <> Curve /\ ~ straight s) <-> curve_after_line c).
Proof.
  intros Hf H. pose proof (reversed_strokes dbg c c' H) as Hs.
  assert (forall i s s', nth_error (rev (segments c')) i = Some s' -> nth_error (segments c) i = Some s -> straight s' <-> straight s) as Hst.
  { intros i s s' H1 H2. rewrite <- (straight_flip s). apply straight_stroke.
    apply (f_equal (@rev _)) in Hs. rewrite rev_involutive, <- map_rev in Hs. apply (f_equal (fun l => nth_error l i)) in Hs.
    rewrite !nth_error_map, H1, H2 in Hs. cbn in Hs. congruence. }
  assert (length (segments c') = length (segments c)) as Hlen by (apply (f_equal (@length _)) in Hs; rewrite rev_length, !map_length in Hs; exact Hs).
  assert (forall s, In s (segments c') <-> exists i, nth_error (rev (segments c')) i = Some s) as Hin.
  { intros s. rewrite in_rev. split; [apply In_nth_error|intros (i & Hi); eapply nth_error_In; eauto]. }
  unfold curve_after_line, comes_after. destruct (opened_dec c) as [Ho|Hc].
  - destruct (opened_ends c Ho) as (p & m & l & E & Hp). pose proof H as HK. rewrite E in HK. apply reversed_kinds_open in HK; [|exact Hp].
    rewrite <- map_rev in HK. rewrite (segments_open c Ho) in *.
    assert (length (open_segments c) = S (length m)) as Hn by (rewrite open_length, E; cbn; rewrite app_length; cbn; lia).
    assert (Forall (fun q => pptype q = Line \/ pptype q = Curve) (m ++ [l])) as Ht by (destruct Hf as (p1 & t1 & E1 & _ & Ht); rewrite E in E1; injection E1 as _ <-; exact Ht).
    assert (forall i s, nth_error (open_segments c) i = Some s -> S i < S (length m) -> exists q, nth_error m i = Some q /\ sg_kind s = pptype q) as Hk.
    { intros i s Hi Hlt. rewrite E in Hi. cbn [open_segments] in Hi. rewrite nth_segs_from in Hi. destruct (nth_error (p :: m ++ [l]) i); [|discriminate].
      rewrite nth_error_app1 in Hi by lia. destruct (nth_error m i) as [q|]; [|discriminate]. injection Hi as <-. exists q. split; reflexivity. }
    split.
    + intros (s & Hins & Hsk & Hss). apply Hin in Hins as (i & Hi).
      assert (i < length (open_segments c)) as Hil by (rewrite <- Hlen, <- rev_length; apply nth_error_Some; congruence).
      apply (f_equal (fun l => nth_error l i)) in HK. rewrite nth_error_map, Hi in HK. cbn [option_map] in HK.
      destruct (nth_error (open_segments c) i) as [s'|] eqn:Hs'; [|apply nth_error_None in Hs'; lia].
      destruct i as [|i].
      * exfalso. cbn [nth_error] in HK. injection HK as HK. apply Hss. apply (Hst 0 s' s Hi Hs'). rewrite E in Hs'. cbn [open_segments] in Hs'.
        assert (s' = seg_between p (hd l m)) as -> by (clear - Hs'; destruct m; cbn in Hs'; injection Hs' as <-; reflexivity).
        rewrite HK in Hsk. unfold straight, drawn, seg_between. cbn [sg_from sg_out sg_in sg_to]. destruct (pb (hd l m)), (pa p); cbn in Hsk; try congruence. reflexivity.
      * cbn [nth_error] in HK. rewrite nth_error_map in HK. destruct (nth_error m i) as [q|] eqn:Hq; [|discriminate]. cbn in HK. injection HK as HK.
        destruct (nth_error (open_segments c) i) as [s0|] eqn:Hs0; [|apply nth_error_None in Hs0; lia].
        exists s0, s'. split.
        { exists i. rewrite next_small by lia. split; [exact Hs0|]. split; [exact Hs'|]. intros _. lia. }
        destruct (Hk i s0 Hs0) as (q' & Hq' & Hkq); [lia|]. rewrite Hq in Hq'. injection Hq' as <-. split.
        { rewrite Hkq. apply nth_error_In in Hq. rewrite Forall_forall in Ht. destruct (Ht q) as [X|X]; [apply in_or_app; now left|exact X|]. congruence. }
        rewrite <- (Hst (S i) s' s Hi Hs'). exact Hss.
    + intros (s0 & s' & (i & H0 & H1 & H2) & Hk0 & Hns). specialize (H2 Ho). rewrite next_small in H1 by lia.
      destruct (nth_error (rev (segments c')) (S i)) as [s|] eqn:Hi; [|apply nth_error_None in Hi; rewrite rev_length in Hi; lia].
      exists s. split; [apply Hin; eauto|]. split; [|now rewrite (Hst (S i) s' s Hi H1)].
      apply (f_equal (fun l => nth_error l (S i))) in HK. rewrite nth_error_map, Hi in HK. cbn [option_map nth_error] in HK. rewrite nth_error_map in HK.
      destruct (Hk i s0 H0) as (q & Hq & Hkq); [lia|]. rewrite Hq in HK. cbn in HK. injection HK as HK. congruence.
  - pose proof (reversed_kinds_closed dbg c c' Hc H) as HK. rewrite <- map_rev in HK. rewrite (segments_closed c Hc) in *. rewrite closed_length in *.
    assert (forall i s, nth_error (closed_segments c) i = Some s -> exists q, nth_error c (next_of (length c) i) = Some q /\ sg_kind s = pptype q) as Hk.
    { intros i s Hi. assert (i < length c) as Hlt by (rewrite <- closed_length; apply nth_error_Some; congruence).
      destruct (nth_some c i Hlt) as [a Ha]. destruct (nth_some c (next_of (length c) i)) as [q Hq]; [now apply next_lt|].
      rewrite (nth_closed c i a q Ha Hq) in Hi. injection Hi as <-. exists q. split; [exact Hq|reflexivity]. }
    assert (forall q, In q c -> pptype q <> Curve -> pptype q = Line) as Ht.
    { destruct Hf as (p1 & t1 & -> & Hp & Ht). intros q [<-|Hq] Hn.
      - destruct Hp as [[Hm Hne]|[X|X]]; [|exact X|contradiction]. exfalso. apply Hc. destruct t1 as [|q t1]; [congruence|]. repeat eexists. exact Hm.
      - rewrite Forall_forall in Ht. destruct (Ht q Hq); [assumption|contradiction]. }
    assert (forall j, j < length c -> exists i, i < length c /\ next_of (length c) i = j) as Hpr.
    { intros [|j] Hj; [exists (length c - 1); split; [lia|apply next_last; lia]|exists j; split; [lia|apply next_small; lia]]. }
    split.
    + intros (s & Hins & Hsk & Hss). apply Hin in Hins as (j & Hj).
      assert (j < length c) as Hjl by (rewrite <- Hlen, <- rev_length; apply nth_error_Some; congruence).
      destruct (Hpr j Hjl) as (i & Hi & Eij).
      destruct (nth_error (closed_segments c) i) as [s0|] eqn:Hs0; [|apply nth_error_None in Hs0; rewrite closed_length in Hs0; lia].
      destruct (nth_error (closed_segments c) j) as [s'|] eqn:Hs'; [|apply nth_error_None in Hs'; rewrite closed_length in Hs'; lia].
      exists s0, s'. split; [exists i; rewrite Eij; split; [exact Hs0|split; [exact Hs'|contradiction]]|].
      destruct (Hk i s0 Hs0) as (q & Hq & Hkq). rewrite Eij in Hq.
      apply (f_equal (fun l => nth_error l j)) in HK. rewrite !nth_error_map, Hj, Hq in HK. cbn in HK. injection HK as HK. split.
      * rewrite Hkq. apply Ht; [eapply nth_error_In; eauto|congruence].
      * rewrite <- (Hst j s' s Hj Hs'). exact Hss.
    + intros (s0 & s' & (i & H0 & H1 & _) & Hk0 & Hns). set (j := next_of (length c) i) in *.
      assert (j < length c) as Hjl by (rewrite <- closed_length; apply nth_error_Some; congruence).
      destruct (nth_error (rev (segments c')) j) as [s|] eqn:Hj; [|apply nth_error_None in Hj; rewrite rev_length in Hj; lia].
      exists s. split; [apply Hin; eauto|]. split; [|now rewrite (Hst j s' s Hj H1)].
      destruct (Hk i s0 H0) as (q & Hq & Hkq). fold j in Hq.
      apply (f_equal (fun l => nth_error l j)) in HK. rewrite !nth_error_map, Hj, Hq in HK. cbn in HK. injection HK as HK. congruence.
Qed.

Lemma straight_dec s : straight s \/ ~ straight s.
Proof. unfold straight. destruct (four_dec (drawn s) (sg_from s, sg_from s, sg_to s, sg_to s)); tauto. Qed.

Lemma reversed_form dbg c c' : cubic_contour_form c -> to_reversed dbg c = Ok c' -> cubic_contour_form c'.
Proof.
  intros (p & t & E & Hp & Ht) H. destruct (opened_dec c) as [Ho|Hc].
  - destruct (opened_ends c Ho) as (p' & m & l & E' & Hm). rewrite E in E'. injection E' as <- ->. rewrite E in H. rewrite to_reversed_open in H by exact Hm.
    destruct (dbg && _); [discriminate|]. injection H as <-. do 2 eexists. split; [reflexivity|]. split; [left; split; [reflexivity|now destruct (map swapped (rev m))]|].
    apply Forall_app in Ht as [Ht _]. apply Forall_app. split.
    + apply Forall_forall. intros q Hq. apply in_map_iff in Hq as (q' & <- & Hq'). apply in_rev in Hq'. rewrite Forall_forall in Ht. exact (Ht q' Hq').
    + constructor; [|constructor]. cbn. unfold kind_of. destruct (pb (hd l m)), (pa p); auto.
  - rewrite (to_reversed_closed dbg c p t E Hc) in H. injection H as <-. do 2 eexists. split; [reflexivity|]. split.
    + destruct Hp as [[Hm Hne]|Hp]; [|right; exact Hp]. exfalso. apply Hc. rewrite E. destruct t as [|q t]; [congruence|]. repeat eexists. exact Hm.
    + apply Forall_forall. intros q Hq. apply in_map_iff in Hq as (q' & <- & Hq'). apply in_rev in Hq'. rewrite Forall_forall in Ht. exact (Ht q' Hq').
Qed.

Lemma segment_kinds c s : cubic_contour_form c -> In s (segments c) -> sg_kind s = Line \/ sg_kind s = Curve.
Proof.
  intros (p & t & E & Hp & Ht) Hs.
  assert (In (sg_kind s) (map sg_kind (segments c))) as Hk by now apply in_map. rewrite Forall_forall in Ht. destruct (opened_dec c) as [Ho|Hc].
  - rewrite (segments_open c Ho), E in Hk. cbn [open_segments] in Hk. rewrite kinds_segs in Hk. apply in_map_iff in Hk as (q & <- & Hq). now apply Ht.
  - rewrite (segments_closed c Hc), E in Hk. cbn [closed_segments] in Hk. rewrite kinds_segs in Hk. apply in_map_iff in Hk as (q & <- & Hq).
    apply in_app_or in Hq as [Hq|[<-|[]]]; [now apply Ht|]. destruct Hp as [[Hm Hne]|Hp]; [|exact Hp]. exfalso. apply Hc. rewrite E. destruct t as [|q t]; [congruence|]. repeat eexists. exact Hm.
Qed.

Lemma same_drawing_opened {A} c c' (l l' : list A) : (opened c <-> opened c') -> same_drawing c l l' <-> same_drawing c' l l'.
Proof. intros H. unfold same_drawing. tauto. Qed.

(** Recomputing the types. *)
Lemma same_strokes c c' : map untyped c = map untyped c' -> (opened c <-> opened c') -> map stroke (segments c) = map stroke (segments c').
Proof.
  intros H Ho. destruct c as [|p t], c' as [|p' t']; try discriminate; [reflexivity|]. cbn [map] in H.
  assert (untyped p = untyped p') as H1 by congruence. assert (map untyped t = map untyped t') as H2 by congruence.
  destruct (opened_dec (p :: t)) as [X|X].
  - rewrite (segments_open (p :: t) X), (segments_open (p' :: t')) by tauto. now apply strokes_untyped.
  - rewrite (segments_closed (p :: t) X), (segments_closed (p' :: t')) by tauto. apply strokes_untyped; [exact H1|]. rewrite !map_app. cbn [map]. congruence.
Qed.

Lemma refigured_all c c' : 2 <= length c -> handles_away c -> refigure c = Ok c' ->
  cubic_contour_form c' /\ (opened c <-> opened c') /\ map untyped c = map untyped c' /\
  forall s, In s (segments c') -> sg_kind s <> Curve -> straight s.
Proof.
  intros Hn Ha H. destruct (refigure_types c c' Hn H) as (Hl & Hsame & Hk & Hop & Hcl).
  assert (map untyped c = map untyped c') as Hu.
  { apply nth_error_ext. intros i. rewrite !nth_error_map. destruct (lt_dec i (length c)) as [Hi|Hi].
    - destruct (nth_some c i Hi) as [p Hp]. destruct (nth_some c' i) as [p' Hp']; [lia|]. rewrite Hp, Hp'. cbn. f_equal.
      destruct (Ha p (nth_error_In _ _ Hp)) as [A1 A2]. destruct (Hsame i p p' Hp Hp') as (X1 & X2 & X3 & X4 & X5 & [[? _]|[_ X6]] & [[? _]|[_ X7]]); try contradiction.
      unfold untyped. congruence.
    - assert (length c <= i) as A by lia. assert (length c' <= i) as B by lia. apply nth_error_None in A, B. now rewrite A, B. }
  assert (forall i p p', nth_error c i = Some p -> nth_error c' i = Some p' -> pa p' = pa p) as Hpa.
  { intros i p p' Hp Hp'. apply (f_equal (fun l => nth_error l i)) in Hu. rewrite !nth_error_map, Hp, Hp' in Hu. cbn in Hu. unfold untyped in Hu. congruence. }
  assert (forall i q, nth_error c' (S i) = Some q -> pptype q = Line \/ pptype q = Curve) as Htl.
  { intros i q Hq. destruct (nth_some c' i) as [p Hp]; [apply Nat.lt_succ_l, nth_error_Some; congruence|]. rewrite (Hk i q p Hp Hq). unfold kind_of. destruct (pa p), (pb q); auto. }
  assert (length c' = length c) as Hl' by exact Hl.
  destruct c' as [|p' [|q' t']]; [cbn in Hl; lia|cbn in Hl; lia|]. remember (p' :: q' :: t') as c' eqn:Ec.
  destruct (nth_some c (length c - 1)) as [l Hlast]; [lia|].
  assert (forall a b, kind_of a b <> Curve -> a = Colocated /\ b = Colocated) as Hko by (intros [] []; cbn; intros X; try congruence; split; reflexivity).
  assert (forall (a b : point PD), pptype b = kind_of (pa a) (pb b) -> pptype b <> Curve -> straight (seg_between a b)) as Hstr.
  { intros a b E N. rewrite E in N. apply Hko in N as [N1 N2]. unfold straight, drawn, seg_between. cbn [sg_from sg_out sg_in sg_to]. now rewrite N1, N2. }
  assert (opened c <-> opened c') as Hoo.
  { destruct (open_or_closed c Hn) as [Ho|Hc].
    - split; [intros _|auto]. rewrite Ec. exists p', q', t'. split; [reflexivity|]. apply Hop; [exact Ho|now rewrite Ec].
    - split; [intros (a & b & r & E & Hm); destruct Hc as (a' & b' & r' & E' & Hm'); congruence|]. rewrite Ec. intros (a & b & r & E & Hm). injection E as <- _ _.
      specialize (Hcl Hc p' l). rewrite Ec in Hcl. specialize (Hcl eq_refl Hlast). rewrite Hm in Hcl. unfold kind_of in Hcl. destruct (pa l), (pb p'); discriminate. }
  split; [|split; [exact Hoo|split; [exact Hu|]]].
  - exists p', (q' :: t'). split; [exact Ec|]. split.
    + destruct (open_or_closed c Hn) as [Ho|Hc].
      * left. split; [|discriminate]. apply Hop; [exact Ho|now rewrite Ec].
      * right. specialize (Hcl Hc p' l). rewrite Ec in Hcl. specialize (Hcl eq_refl Hlast). rewrite Hcl. unfold kind_of. destruct (pa l), (pb p'); auto.
    + apply Forall_forall. intros q Hq. apply In_nth_error in Hq as (i & Hi). apply (Htl i). now rewrite Ec.
  - intros s Hs N. apply In_nth_error in Hs as (i & Hi). destruct (opened_dec c') as [Ho|Hc].
    + rewrite (segments_open c' Ho) in Hi. assert (i < length (open_segments c')) as Hil by (apply nth_error_Some; congruence). rewrite open_length in Hil.
      destruct (nth_some c' i) as [a A]; [lia|]. destruct (nth_some c' (S i)) as [b B]; [lia|]. rewrite (nth_open c' i a b A B) in Hi. injection Hi as <-.
      apply Hstr; [exact (Hk i b a A B)|exact N].
    + rewrite (segments_closed c' Hc) in Hi. assert (i < length (closed_segments c')) as Hil by (apply nth_error_Some; congruence). rewrite closed_length in Hil.
      destruct (nth_some c' i) as [a A]; [lia|]. destruct (nth_some c' (next_of (length c') i)) as [b B]; [now apply next_lt|]. rewrite (nth_closed c' i a b A B) in Hi. injection Hi as <-.
      apply Hstr; [|exact N]. destruct (Nat.eq_dec (S i) (length c')) as [E|E].
      * rewrite next_last in B by exact E. assert (closed c) as Hcc by (destruct (open_or_closed c Hn); [tauto|assumption]).
        rewrite (Hcl Hcc b l B Hlast). f_equal. symmetry. apply (Hpa i l a); [|exact A]. rewrite <- Hlast. f_equal. lia.
      * rewrite next_small in B by lia. exact (Hk i b a A B).
Qed.

Lemma refigured_drawing c c' : 2 <= length c -> handles_away c -> refigure c = Ok c' -> drawing c' = drawing c.
Proof. intros Hn Ha H. destruct (refigured_all c c' Hn Ha H) as (_ & Ho & Hu & _). unfold drawing. symmetry. apply map_drawn_stroke. now apply same_strokes. Qed.

(** Points with the same numbers. *)
Lemma reversed_points dbg c c' p' : to_reversed dbg c = Ok c' -> In p' c' -> exists p, In p c /\ px p' = px p /\ py p' = py p /\ pa p' = pb p /\ pb p' = pa p.
Proof.
  intros H Hp. destruct (opened_dec c) as [Ho|Hc].
  - destruct (opened_ends c Ho) as (p & m & l & -> & Hm). rewrite to_reversed_open in H by exact Hm. destruct (dbg && _); [discriminate|]. injection H as <-.
    destruct Hp as [<-|Hp]; [exists l; split; [right; apply in_or_app; right; now left|repeat split]|]. apply in_app_or in Hp as [Hp|[<-|[]]].
    + apply in_map_iff in Hp as (q & <- & Hq). exists q. split; [right; apply in_or_app; left; now apply in_rev|repeat split].
    + exists p. split; [now left|repeat split].
  - destruct c as [|p t]; [discriminate|]. rewrite (to_reversed_closed dbg (p :: t) p t eq_refl Hc) in H. injection H as <-.
    change (In p' (map swapped (p :: rev t))) in Hp. apply in_map_iff in Hp as (q & <- & Hq). exists q. split; [|repeat split]. destruct Hq as [<-|Hq]; [now left|right; now apply in_rev].
Qed.
Lemma reversed_away dbg c c' : to_reversed dbg c = Ok c' -> handles_away c -> handles_away c'.
Proof.
  intros H Ha p' Hp'. destruct (reversed_points dbg c c' p' H Hp') as (p & Hp & E1 & E2 & E3 & E4). destruct (Ha p Hp) as [A B].
  unfold on_point in *. rewrite E1, E2, E3, E4. tauto.
Qed.
Lemma reversed_length dbg c c' : to_reversed dbg c = Ok c' -> length c' = length c.
Proof.
  intros H. destruct (opened_dec c) as [Ho|Hc].
  - destruct (opened_ends c Ho) as (p & m & l & -> & Hm). rewrite to_reversed_open in H by exact Hm. destruct (dbg && _); [discriminate|]. injection H as <-.
    cbn [length]. rewrite !app_length, map_length, rev_length. reflexivity.
  - destruct c as [|p t]; [discriminate|]. rewrite (to_reversed_closed dbg (p :: t) p t eq_refl Hc) in H. injection H as <-. cbn [map length]. now rewrite map_length, rev_length.
Qed.

End Drawn.
