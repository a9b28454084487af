(** Pen operations made from contours. *)
Require Import Coq.Lists.List Coq.Arith.Arith Coq.Bool.Bool Coq.micromega.Lia.
Require Import Verif.Model.Base Verif.Model.Float Verif.Model.Num Verif.Model.Point Verif.Model.Contour
  Verif.Model.Refigure Verif.Model.Penops Verif.Model.Kurbo Verif.Spec.ContourSpec Verif.Spec.PathSpec
  Verif.Facts.ContourFacts Verif.Facts.RefigureFacts.
Import ListNotations.

Section P.
Context (L : numlib) {PD : Type}.
Implicit Types (p q r : point PD) (c : contour PD).

Definition curve_op p q : penop := CurveTo (gp_from_handle L p WA) (gp_from_handle L q WB) (gp_of_point L q).

(** The operation made for point i. *)
Definition op_at c (i : nat) : penop :=
  match nth_error c i with
  | Some p =>
      match pptype p with
      | Move => MoveTo (gp_of_point L p)
      | Line => LineTo (gp_of_point L p)
      | _ =>
          if is_open c && (i =? length c - 1) then
            match nth_error c (i - 1) with Some q => curve_op q p | None => Close end
          else
            match nth_error c (next_of (length c) i) with Some q => curve_op p q | None => Close end
      end
  | None => Close
  end.
Definition simple_types c : Prop := forall i p, nth_error c i = Some p ->
  pptype p = Move \/ pptype p = Line \/ pptype p = Curve.
Definition type_at c i t : bool := match nth_error c i with Some p => ptype_eqb (pptype p) t | None => false end.

Lemma step_op c vec i : 2 <= length c -> simple_types c -> i < length c -> vec <> [] \/ i = 0 ->
  penop_step L c vec i = Ok ((if (i =? 1) && type_at c i Line then removelast vec else vec) ++ [op_at c i]).
Proof.
  intros Hn Ht Hi Hv. unfold penop_step, op_at, type_at.
  destruct (idx_ok c i Hi) as (p & Hp & ->). rewrite Hp. cbn [bind].
  destruct (Ht i p Hp) as [E|[E|E]]; rewrite E; cbn [ptype_eqb]; rewrite ?andb_false_r, ?andb_true_r; [reflexivity| |].
  - destruct (Nat.eqb_spec i 1); [|reflexivity]. destruct vec; [destruct Hv; [congruence|lia]|reflexivity].
  - destruct (open_or_closed c Hn) as [Ho|Hc].
    + rewrite (contour_prev_next_open c i Ho Hi). apply is_open_opened in Ho as [-> _]. cbn [andb].
      destruct (Nat.eqb_spec i (length c - 1)) as [El|El].
      * destruct (Nat.eqb_spec i 0); [lia|]. destruct (idx_ok c (i - 1)) as (q & Hq & ->); [lia|].
        rewrite Hq. reflexivity.
      * unfold next_of. rewrite Nat.mod_small by lia. destruct (idx_ok c (i + 1)) as (q & Hq & E2); [lia|].
        rewrite Hq. destruct (i =? 0); rewrite E2; reflexivity.
    + rewrite (contour_prev_next_closed c i Hc Hi). apply is_open_closed in Hc as [-> _]. cbn [andb].
      destruct (neighbours_good (length c) i Hn Hi) as (_ & H & _).
      destruct (idx_ok c _ H) as (q & Hq & E2). rewrite Hq, E2. reflexivity.
Qed.

Lemma loop_op c : 2 <= length c -> simple_types c -> forall n k vec, 2 <= k -> k + n = length c -> vec <> [] ->
  penop_loop L c vec (seq k n) = Ok (vec ++ map (op_at c) (seq k n)).
Proof.
  intros Hn Ht. induction n as [|n IH]; intros k vec Hk Hkn Hv; cbn [seq penop_loop map].
  - now rewrite app_nil_r.
  - rewrite step_op by (auto; lia). destruct (Nat.eqb_spec k 1); [lia|]. cbn [andb bind].
    rewrite IH; [|lia|lia|destruct vec; discriminate]. now rewrite <- app_assoc.
Qed.

Lemma whole_loop c vec : 2 <= length c -> simple_types c ->
  penop_loop L c vec (seq 0 (length c)) =
  Ok (vec ++ (if type_at c 1 Line then [] else [op_at c 0]) ++ map (op_at c) (seq 1 (length c - 1))).
Proof.
  intros Hn Ht. remember (length c - 2) as m eqn:Em.
  replace (length c) with (S (S m)) at 1 by lia. cbn [seq penop_loop].
  rewrite step_op by (auto; lia). cbn [Nat.eqb andb bind].
  rewrite step_op; [|assumption|assumption|lia|left; destruct vec; discriminate].
  cbn [Nat.eqb andb bind]. rewrite loop_op; [|assumption|assumption|lia|lia|].
  2:{ destruct (type_at c 1 Line); [|destruct vec; discriminate]. rewrite removelast_last. destruct vec; discriminate. }
  replace (length c - 1) with (S m) by lia. cbn [seq map]. f_equal.
  destruct (type_at c 1 Line).
  - rewrite removelast_last. cbn [app]. now rewrite <- app_assoc.
  - rewrite <- !app_assoc. reflexivity.
Qed.

Lemma refigure_simple c c' : 2 <= length c -> refigure c = Ok c' ->
  simple_types c' /\ 2 <= length c' /\ is_open c' = is_open c.
Proof.
  intros Hn H. destruct (refigure_types c c' Hn H) as (Hl & _ & Hk & Ho & Hc).
  assert (simple_types c') as Hs.
  { intros i p Hp. destruct i as [|i].
    - destruct (open_or_closed c Hn) as [Hop|Hcl]; [left; eauto|].
      destruct (idx_ok c (length c - 1)) as (l & El & _); [lia|].
      rewrite (Hc Hcl p l Hp El). destruct (pa l), (pb p); cbn; auto.
    - assert (i < length c') as Hi by (apply Nat.lt_succ_l; apply nth_error_Some; congruence).
      destruct (idx_ok c' i Hi) as (q & Eq & _). rewrite (Hk i p q Eq Hp). destruct (pa q), (pb p); cbn; auto. }
  split; [assumption|]. split; [lia|].
  destruct (refigure_total c) as (d & E & Ha). assert (d = c') as -> by congruence. now apply after_is_open in Ha.
Qed.

(** Operations of any closed contour. *)
Lemma closed_ops c c' p t : closed c -> refigure c = Ok c' -> c' = p :: t ->
  into_pen_operations L c =
  Ok (MoveTo (gp_of_point L p) :: (if type_at c' 1 Line then [] else [op_at c' 0]) ++
      map (op_at c') (seq 1 (length c' - 1)) ++ [Close], c').
Proof.
  intros Hc H E. apply is_open_closed in Hc as [Ho Hn].
  destruct (refigure_simple c c' Hn H) as (Hs & Hn' & Ho'). rewrite Ho in Ho'.
  unfold into_pen_operations, is_closed. rewrite Ho, H. cbn [negb bind].
  assert (forall X (k : point PD -> list (point PD) -> res X) e, match c' with [] => e | p :: t => k p t end = k p t) as Hm by (intros; now rewrite E).
  rewrite Hm. cbn [bind]. rewrite whole_loop by assumption. cbn [bind]. rewrite Hm, <- E.
  destruct (idx_ok c' (length c' - 1)) as (l & El & _); [lia|].
  assert (exists r : list (point PD), rev c' = l :: r) as (r & Er).
  { destruct (rev c') as [|x r] eqn:Er; [apply (f_equal (@length _)) in Er; rewrite rev_length in Er; cbn in Er; lia|].
    exists r. f_equal. apply (f_equal (@rev _)) in Er. rewrite rev_involutive in Er. cbn in Er. rewrite Er in El.
    rewrite app_length, Nat.add_sub, nth_error_app2, Nat.sub_diag in El by lia. now injection El. }
  rewrite Er. repeat f_equal.
  set (vec := [MoveTo (gp_of_point L p)] ++ _).
  match goal with |- (if ?b then ?m else _) ++ _ = _ => assert ((if b then m else vec) = vec) as -> end.
  2:{ unfold vec. cbn [app]. now rewrite <- app_assoc. }
  destruct (ptype_eqb_spec (pptype l) Curve) as [E1|]; [|reflexivity].
  destruct (ptype_eqb_spec (pptype p) Curve) as [E2|]; [|reflexivity]. cbn [andb].
  assert (exists v, vec = v ++ [curve_op l p]) as (v & ->).
  { unfold vec. replace (length c' - 1) with (length c' - 2 + 1) by lia. rewrite seq_app, map_app.
    eexists. rewrite !app_assoc. f_equal. cbn [seq map]. f_equal. unfold op_at.
    replace (1 + (length c' - 2)) with (length c' - 1) by lia. rewrite El, E1, Ho'. cbn [andb].
    unfold next_of. replace (length c' - 1 + 1) with (length c') by lia. rewrite Nat.mod_same by lia. rewrite E. reflexivity. }
  clear. induction v as [|x v IH]; [reflexivity|]. cbn [app]. destruct v; [cbn [app] in *|].
  - reflexivity.
  - cbn [app map_last] in *. now rewrite IH.
Qed.

Lemma open_ops c c' : opened c -> refigure c = Ok c' ->
  into_pen_operations L c =
  Ok ((if type_at c' 1 Line then [] else [op_at c' 0]) ++ map (op_at c') (seq 1 (length c' - 1)), c').
Proof.
  intros Hc H. apply is_open_opened in Hc as [Ho Hn].
  destruct (refigure_simple c c' Hn H) as (Hs & Hn' & Ho'). rewrite Ho in Ho'.
  unfold into_pen_operations, is_closed. rewrite Ho, H. cbn [negb bind].
  rewrite whole_loop by assumption. reflexivity.
Qed.

Lemma pen_total c : (exists res, into_pen_operations L c = Ok res) \/
  (length c = 1 /\ into_pen_operations L c = Err (EContourBadPointType 0 OffCurve)).
Proof.
  destruct c as [|p [|q t]] eqn:E.
  - left. eexists. reflexivity.
  - right. split; [reflexivity|]. destruct (refigure_total [p]) as (c' & H & _).
    destruct (refigure_after _ _ H) as [Hl Ha]. unfold into_pen_operations. cbn [is_closed is_open negb].
    rewrite H. cbn [bind]. destruct c' as [|p' [|]]; cbn in Hl; try lia.
    pose proof (Ha 0) as H0. cbn in H0. injection H0 as ->. reflexivity.
  - rewrite <- E. destruct (refigure_total c) as (c' & H & _). left.
    assert (2 <= length c) as Hn by (subst; cbn; lia).
    destruct (open_or_closed c Hn) as [Ho|Hc].
    + eexists. exact (open_ops c c' Ho H).
    + destruct (refigure_simple c c' Hn H) as (_ & Hn' & _). destruct c' as [|p' t'] eqn:E'; [cbn in Hn'; lia|].
      eexists. exact (closed_ops c c' p' t' Hc ltac:(congruence) E').
Qed.

(** All curves. *)
Fixpoint curves_from p (l : list (point PD)) : list penop :=
  match l with [] => [] | q :: t => curve_op p q :: curves_from q t end.

Lemma ops_curves c first : is_open c = false -> nth_error c 0 = Some first -> 2 <= length c ->
  (forall i p, nth_error c i = Some p -> pptype p = Curve) ->
  forall t p pre, c = pre ++ p :: t ->
  map (op_at c) (seq (length pre) (S (length t))) = curves_from p (t ++ [first]).
Proof.
  intros Ho Hf Hn Ht. induction t as [|q t IH]; intros p pre E.
  - cbn [length seq map app curves_from]. f_equal. unfold op_at.
    assert (nth_error c (length pre) = Some p) as Ep by (rewrite E, nth_error_app2, Nat.sub_diag by lia; reflexivity).
    rewrite Ep, (Ht _ _ Ep), Ho. cbn [andb]. unfold next_of.
    assert (length c = length pre + 1) as Hl by (rewrite E, app_length; reflexivity).
    rewrite <- Hl, Nat.mod_same by lia. now rewrite Hf.
  - cbn [length]. rewrite <- cons_seq. cbn [map app curves_from]. f_equal.
    + unfold op_at.
      assert (nth_error c (length pre) = Some p) as Ep by (rewrite E, nth_error_app2, Nat.sub_diag by lia; reflexivity).
      rewrite Ep, (Ht _ _ Ep), Ho. cbn [andb]. unfold next_of.
      assert (length c = length pre + S (S (length t))) as Hl by (rewrite E, app_length; reflexivity).
      rewrite Nat.mod_small by lia. rewrite E, nth_error_app2 by lia.
      replace (length pre + 1 - length pre) with 1 by lia. reflexivity.
    + specialize (IH q (pre ++ [p])). rewrite app_length in IH. cbn [length] in IH.
      replace (S (length pre)) with (length pre + 1) by lia. apply IH. rewrite E, <- app_assoc. reflexivity.
Qed.

Lemma all_curve_ops c c' p t : closed c -> refigure c = Ok c' -> c' = p :: t ->
  (forall q, In q c' -> pptype q = Curve) ->
  into_pen_operations L c = Ok (MoveTo (gp_of_point L p) :: curves_from p (t ++ [p]) ++ [Close], c').
Proof.
  intros Hc H E Ht. rewrite (closed_ops c c' p t Hc H E).
  pose proof (is_open_closed c Hc) as [Ho Hn]. destruct (refigure_simple c c' Hn H) as (Hs & Hn' & Ho').
  rewrite Ho in Ho'.
  assert (forall i p, nth_error c' i = Some p -> pptype p = Curve) as Ht' by (intros i q Hq; apply Ht; eapply nth_error_In; eauto).
  assert (type_at c' 1 Line = false) as ->.
  { unfold type_at. destruct (nth_error c' 1) eqn:E1; [|reflexivity]. now rewrite (Ht' _ _ E1). }
  pose proof (ops_curves c' p Ho' ltac:(rewrite E; reflexivity) Hn' Ht' t p [] E) as Hm.
  cbn [length] in Hm. rewrite <- Hm. rewrite <- cons_seq. cbn [map app].
  replace (length c' - 1) with (length t) by (rewrite E; cbn; lia). reflexivity.
Qed.

(** All lines. *)
Lemma ops_lines c t p : c = p :: t -> (forall q, In q t -> pptype q = Line) ->
  map (op_at c) (seq 1 (length t)) = map (fun q => LineTo (gp_of_point L q)) t.
Proof.
  intros E Ht. apply nth_error_ext. intros i. rewrite !nth_error_map.
  destruct (nth_error t i) as [q|] eqn:Eq.
  - assert (i < length t) as Hi by (apply nth_error_Some; congruence).
    rewrite (nth_error_nth' _ 0) by (now rewrite seq_length). rewrite seq_nth by assumption.
    cbn [option_map]. unfold op_at. rewrite E. cbn [Nat.add nth_error]. rewrite Eq, (Ht q (nth_error_In _ _ Eq)). reflexivity.
  - apply nth_error_None in Eq. destruct (nth_error (seq 1 (length t)) i) eqn:E2; [|reflexivity].
    assert (i < length (seq 1 (length t))) as Hi by (apply nth_error_Some; congruence). rewrite seq_length in Hi. lia.
Qed.

Lemma all_line_ops c c' p t : closed c -> refigure c = Ok c' -> c' = p :: t ->
  (forall q, In q t -> pptype q = Line) ->
  into_pen_operations L c =
  Ok (MoveTo (gp_of_point L p) :: map (fun q => LineTo (gp_of_point L q)) t ++ [Close], c').
Proof.
  intros Hc H E Ht. rewrite (closed_ops c c' p t Hc H E).
  pose proof (is_open_closed c Hc) as [Ho Hn]. destruct (refigure_simple c c' Hn H) as (Hs & Hn' & Ho').
  assert (type_at c' 1 Line = true) as ->.
  { unfold type_at. destruct t as [|q t]; [rewrite E in Hn'; cbn in Hn'; lia|]. rewrite E. cbn [nth_error].
    rewrite (Ht q) by (now left). reflexivity. }
  cbn [app]. replace (length c' - 1) with (length t) by (rewrite E; cbn; lia).
  now rewrite (ops_lines c' t p E Ht).
Qed.

(** What they draw. *)
Lemma at_point p : at_gp (gp_of_point L p) = num_at L (px p, py p).
Proof. reflexivity. Qed.
Lemma at_handle p w : w <> Neither -> at_gp (gp_from_handle L p w) = num_at L (handle_at (px p, py p) (get_handle p w)).
Proof.
  intros _. unfold gp_from_handle, handle_or_colocated. destruct (get_handle p w); reflexivity.
Qed.

Lemma draws_curves first : forall l p s ops d,
  (forall q, In q l -> pptype q = Curve) ->
  draws (Some (s, num_at L (px (last l first), py (last l first)))) ops d -> l <> [] ->
  draws (Some (s, num_at L (px p, py p))) (curves_from p l ++ ops) (map (look L) (segs_from p l) ++ d).
Proof.
  induction l as [|q l IH]; intros p s ops d Ht Hd Hl; [congruence|]. cbn [curves_from segs_from map app].
  unfold curve_op, look at 1. cbn [seg_between sg_kind sg_from sg_out sg_in sg_to].
  rewrite (Ht q) by (now left).
  change (num_at L (handle_at (px p, py p) (pa p))) with (num_at L (handle_at (px p, py p) (get_handle p WA))).
  change (num_at L (handle_at (px q, py q) (pb q))) with (num_at L (handle_at (px q, py q) (get_handle q WB))).
  rewrite <- !at_handle by discriminate. rewrite <- (at_point q). constructor. rewrite at_point.
  destruct l as [|r l].
  - exact Hd.
  - apply IH; [intros; apply Ht; now right|exact Hd|discriminate].
Qed.

Lemma draws_lines first : forall l p s ops d,
  (forall q, In q l -> pptype q = Line) ->
  draws (Some (s, num_at L (px (last l first), py (last l first)))) ops d -> first = p \/ l <> [] ->
  draws (Some (s, num_at L (px p, py p))) (map (fun q => LineTo (gp_of_point L q)) l ++ ops) (map (look L) (segs_from p l) ++ d).
Proof.
  induction l as [|q l IH]; intros p s ops d Ht Hd Hl.
  - destruct Hl as [->|]; [exact Hd|congruence].
  - cbn [segs_from map app]. unfold look at 1. cbn [seg_between sg_kind sg_from sg_out sg_in sg_to].
    rewrite (Ht q) by (now left). rewrite <- (at_point q). constructor. rewrite at_point.
    destruct l as [|r l].
    + exact Hd.
    + apply IH; [intros; apply Ht; now right|exact Hd|right; discriminate].
Qed.

Lemma last_last {A} (l : list A) x d : last (l ++ [x]) d = x.
Proof. induction l as [|a l IH]; [reflexivity|]. cbn. destruct (l ++ [x]) eqn:E; [destruct l; discriminate|]. assumption. Qed.
Lemma segs_from_app : forall l p q, segs_from p (l ++ [q]) = segs_from p l ++ [seg_between (last l p) q].
Proof.
  induction l as [|r l IH]; intros p q; [reflexivity|]. cbn [app segs_from]. rewrite IH. cbn [app].
  f_equal. f_equal. f_equal. f_equal. clear. revert r. induction l as [|s l IH]; intros r; [reflexivity|].
  change (last (s :: l) r = last (s :: l) p). clear IH. revert s.
  induction l as [|u l IH]; intros s; [reflexivity|]. exact (IH u).
Qed.

Lemma closed_drawn c c' ops : closed c -> into_pen_operations L c = Ok (ops, c') ->
  one_kind (closed_segments c') ->
  draws None ops (map (look L) (closed_segments c')).
Proof.
  intros Hc H Hk. destruct (refigure_total c) as (d & Hr & _).
  pose proof (is_open_closed c Hc) as [Ho Hn]. destruct (refigure_simple c d Hn Hr) as (Hs & Hn' & Ho').
  assert (c' = d) as ->.
  { unfold into_pen_operations in H. rewrite Hr in H. cbn [bind] in H.
    destruct (if is_closed c then _ else _) as [v| |]; cbn [bind] in H; try discriminate.
    destruct (penop_loop L d v _) as [w| |]; cbn [bind] in H; try discriminate.
    destruct (is_closed c).
    - destruct d as [|a d]; [discriminate|]. destruct (rev (a :: d)); [discriminate|].
      injection H as _ H. congruence.
    - injection H as _ H. congruence. }
  destruct d as [|p t] eqn:E; [cbn in Hn'; lia|]. cbn [closed_segments] in *.
  assert (pptype p = Line \/ pptype p = Curve) as Hp.
  { destruct (Hs 0 p) as [X|X]; [rewrite <- E; subst; reflexivity| |assumption].
    rewrite Ho in Ho'. destruct t; [cbn in Hn'; lia|]. cbn in Ho'. rewrite X in Ho'. discriminate. }
  assert (forall q, In q (t ++ [p]) -> exists s, In s (segs_from p (t ++ [p])) /\ sg_kind s = pptype q) as Hin.
  { clear. generalize (t ++ [p]) as l. intros l. revert p. induction l as [|r l IH]; intros p q; [intros []|].
    intros [->|Hq]; [eexists; split; [now left|reflexivity]|].
    destruct (IH r q Hq) as (s & Hs & E). exists s. split; [now right|assumption]. }
  assert (forall q, In q (t ++ [p]) -> pptype q = pptype p) as Hall.
  { intros q Hq. destruct (Hin q Hq) as (s & Hs1 & <-).
    destruct (Hin p) as (s' & Hs2 & <-); [apply in_or_app; right; now left|]. now apply Hk. }
  destruct Hp as [Hp|Hp].
  - rewrite (all_line_ops c d p t Hc) in H; [|congruence|assumption|].
    2:{ intros q Hq. rewrite <- Hp. apply Hall. apply in_or_app. now left. }
    injection H as <- _. constructor. rewrite at_point. rewrite segs_from_app, map_app.
    eapply (draws_lines p); [|cbn [map]|now left].
    + intros q Hq. rewrite <- Hp. apply Hall. apply in_or_app. now left.
    + unfold look. cbn [seg_between sg_kind sg_from sg_to]. rewrite Hp. constructor. constructor.
  - rewrite (all_curve_ops c d p t Hc) in H; [|congruence|assumption|].
    2:{ rewrite E. intros q [<-|Hq]; [assumption|]. rewrite <- Hp. apply Hall. apply in_or_app. now left. }
    injection H as <- _. constructor. rewrite at_point. rewrite <- (app_nil_r (map _ _)).
    apply (draws_curves p).
    + intros q Hq. rewrite <- Hp. now apply Hall.
    + rewrite last_last. apply draws_close_there. constructor.
    + destruct t; discriminate.
Qed.

(** Open contours. *)
Lemma open_line_draws_nothing c c' ops p : opened c -> into_pen_operations L c = Ok (ops, c') ->
  nth_error c' 1 = Some p -> pptype p = Line -> forall d, ~ draws None ops d.
Proof.
  intros Hc H Hp Ht d Hd. destruct (refigure_total c) as (c1 & Hr & _).
  rewrite (open_ops c c1 Hc Hr) in H. injection H as <- ->.
  pose proof (is_open_opened c Hc) as [Ho Hn]. destruct (refigure_simple c c' Hn Hr) as (Hs & Hn' & Ho').
  unfold type_at in Hd. rewrite Hp, Ht in Hd. cbn [ptype_eqb app] in Hd.
  replace (length c' - 1) with (S (length c' - 2)) in Hd by lia. cbn [seq map] in Hd.
  unfold op_at at 1 in Hd. rewrite Hp, Ht in Hd. inversion Hd.
Qed.

Lemma open_two_drawn c c' ops p q : opened c -> into_pen_operations L c = Ok (ops, c') ->
  c' = [p; q] -> pptype q = Curve -> draws None ops (map (look L) (open_segments c')).
Proof.
  intros Hc H E Ht. destruct (refigure_total c) as (c1 & Hr & _).
  rewrite (open_ops c c1 Hc Hr) in H. injection H as <- ->.
  pose proof (is_open_opened c Hc) as [Ho Hn]. destruct (refigure_types c c' Hn Hr) as (_ & _ & _ & Hm & _).
  pose proof (Hm Hc p ltac:(rewrite E; reflexivity)) as Hp.
  rewrite E. unfold type_at, op_at. cbn. rewrite Ht, Hp. cbn.
  constructor. rewrite at_point. unfold look, curve_op. cbn [seg_between sg_kind sg_from sg_to sg_in sg_out]. rewrite Ht.
  change (num_at L (handle_at (px p, py p) (pa p))) with (num_at L (handle_at (px p, py p) (get_handle p WA))).
  change (num_at L (handle_at (px q, py q) (pb q))) with (num_at L (handle_at (px q, py q) (get_handle q WB))).
  rewrite <- !at_handle by discriminate. rewrite <- (at_point q). constructor. constructor.
Qed.

(** With three or more points and a curve first, the pen goes from the first point straight to
    the third, with the handles of the second segment. *)
Lemma open_skips c c' ops p q r t : opened c -> into_pen_operations L c = Ok (ops, c') ->
  c' = p :: q :: r :: t -> pptype q = Curve -> forall d, draws None ops d ->
  exists d', d = DCurve (num_at L (px p, py p)) (num_at L (handle_at (px q, py q) (pa q)))
                        (num_at L (handle_at (px r, py r) (pb r))) (num_at L (px r, py r)) :: d'.
Proof.
  intros Hc H E Ht d Hd. destruct (refigure_total c) as (c1 & Hr & _).
  rewrite (open_ops c c1 Hc Hr) in H. injection H as <- ->.
  pose proof (is_open_opened c Hc) as [Ho Hn]. destruct (refigure_types c c' Hn Hr) as (_ & _ & _ & Hm & _).
  pose proof (Hm Hc p ltac:(rewrite E; reflexivity)) as Hp.
  replace (length c' - 1) with (S (length c' - 2)) in Hd by (rewrite E; cbn; lia). cbn [seq map] in Hd.
  assert (type_at c' 1 Line = false) as T by (unfold type_at; rewrite E; cbn; now rewrite Ht).
  assert (op_at c' 0 = MoveTo (gp_of_point L p)) as E0 by (unfold op_at; rewrite E; cbn; now rewrite Hp).
  assert (op_at c' 1 = curve_op q r) as E1.
  { unfold op_at. rewrite E. cbn [nth_error]. rewrite Ht. cbn [length]. unfold next_of.
    rewrite Nat.mod_small by lia. cbn [Nat.eqb Nat.sub]. rewrite andb_false_r. reflexivity. }
  rewrite T, E0, E1 in Hd. cbn [app] in Hd. inversion Hd as [|? ? ? ? H1| | | | |]; subst.
  unfold curve_op in H1. inversion H1; subst. eexists. rewrite at_point, !at_handle by discriminate. reflexivity.
Qed.

End P.
