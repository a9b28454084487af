(** More about pen operations. *)
Require Import Coq.Lists.List Coq.Arith.Arith Coq.Bool.Bool Coq.micromega.Lia.
Require Import Verif.Model.Base Verif.Model.Float Verif.Model.Num Verif.Model.Point Verif.Model.Contour
  Verif.Model.Refigure Verif.Model.Penops Verif.Model.Kurbo Verif.Spec.ContourSpec Verif.Spec.PathSpec
  Verif.Facts.ContourFacts Verif.Facts.RefigureFacts Verif.Facts.PenFacts.
Import ListNotations.

Section P.
Context (L : numlib) {PD : Type}.
Implicit Types (p q r : point PD) (c : contour PD).

(** * What a closed contour draws, exactly *)
Lemma into_refigured c ops c' : into_pen_operations L c = Ok (ops, c') -> refigure c = Ok c'.
Proof.
  intros H. unfold into_pen_operations in H. destruct (refigure c) as [d| |] eqn:Hr; cbn [bind] in H; try discriminate.
  destruct (if is_closed c then _ else _) as [v| |]; cbn [bind] in H; try discriminate.
  destruct (penop_loop L d v _) as [w| |]; cbn [bind] in H; try discriminate.
  destruct (is_closed c).
  - destruct d as [|a d]; [discriminate|]. destruct (rev (a :: d)); [discriminate|]. injection H as _ H. congruence.
  - injection H as _ H. congruence.
Qed.

(** The operations of the points from i on, for a closed contour. *)
Definition closed_op first p nxt : penop :=
  match pptype p with
  | Line => LineTo (gp_of_point L p)
  | _ => curve_op L p (hd first nxt)
  end.
Fixpoint closed_ops_from first (l : list (point PD)) : list penop :=
  match l with [] => [] | p :: t => closed_op first p t :: closed_ops_from first t end.
Lemma closed_ops_map c first : is_open c = false -> nth_error c 0 = Some first -> 2 <= length c ->
  (forall p, In p c -> pptype p = Line \/ pptype p = Curve) ->
  forall t pre, c = pre ++ t -> map (op_at L c) (seq (length pre) (length t)) = closed_ops_from first t.
Proof.
  intros Ho Hf Hn Ht. induction t as [|p t IH]; intros pre E; [reflexivity|].
  cbn [length seq map closed_ops_from]. f_equal.
  - assert (nth_error c (length pre) = Some p) as Ep by (rewrite E, nth_error_app2, Nat.sub_diag by lia; reflexivity).
    unfold op_at, closed_op. rewrite Ep. destruct (Ht p (nth_error_In _ _ Ep)) as [->| ->]; [reflexivity|].
    rewrite Ho. cbn [andb]. unfold next_of. assert (length c = length pre + S (length t)) as Hl by (rewrite E, app_length; reflexivity).
    destruct t as [|q t].
    + replace (length pre + 1) with (length c) by (cbn in Hl; lia). rewrite Nat.mod_same by lia. rewrite Hf. reflexivity.
    + rewrite Nat.mod_small by (cbn in Hl; lia). rewrite E, nth_error_app2 by lia.
      replace (length pre + 1 - length pre) with 1 by lia. reflexivity.
  - specialize (IH (pre ++ [p])). rewrite app_length in IH. cbn [length] in IH.
    replace (S (length pre)) with (length pre + 1) by lia. apply IH. rewrite E, <- app_assoc. reflexivity.
Qed.

Lemma all_lines_when first : forall t p s, draws (Some (s, num_at L (px p, py p))) (closed_ops_from first t ++ [Close])
    (map (look L) (segs_from p (t ++ [first]))) ->
  (forall q, In q t -> pptype q = Line \/ pptype q = Curve) ->
  spread L (p :: t ++ [first]) -> pptype first = Line \/ pptype first = Curve ->
  (exists q, hd_error t = Some q /\ pptype q = Line) \/ t = [] ->
  pptype first = Line /\ forall q, In q t -> pptype q = Line.
Proof.
  induction t as [|q t IH]; intros p s Hd Ht Hs Hf Hq.
  - cbn in Hd. split; [|intros q []]. unfold look in Hd. cbn [seg_between sg_kind] in Hd.
    destruct Hf as [E|E]; [assumption|]. rewrite E in Hd. inversion Hd as [| | | | | |? ? ? H1]; subst. inversion H1.
  - destruct Hq as [(q' & [= <-] & Eq)|]; [|discriminate].
    cbn [closed_ops_from app segs_from map] in Hd. unfold closed_op in Hd. rewrite Eq in Hd.
    unfold look at 1 in Hd. cbn [seg_between sg_kind sg_from sg_to] in Hd. rewrite Eq in Hd.
    inversion Hd as [| |? ? ? ? ? H1| | | |]; subst. rewrite at_point in H1.
    assert (t = [] \/ exists r t', t = r :: t' /\ pptype r = Line) as Hr.
    { destruct t as [|r t']; [now left|]. right. exists r, t'. split; [reflexivity|].
      destruct (Ht r (or_intror (or_introl eq_refl))) as [|E]; [assumption|]. exfalso.
      cbn [closed_ops_from app segs_from map] in H1. unfold closed_op in H1. rewrite E in H1.
      unfold look at 1 in H1. cbn [seg_between sg_kind sg_from sg_to sg_in sg_out] in H1. rewrite E in H1. unfold curve_op in H1.
      inversion H1 as [| | | |? ? ? ? ? ? ? H2 E1 E2| |]; subst.
      destruct t' as [|u t']; cbn [hd app] in *.
      - apply (Hs 2 r first eq_refl eq_refl). unfold num_at; cbn [fst snd]; congruence.
      - apply (Hs 2 r u eq_refl eq_refl). unfold num_at; cbn [fst snd]; congruence. }
    destruct (IH q s H1) as [E1 E2].
    + intros x Hx. apply Ht. now right.
    + intros i x y Ex Ey. exact (Hs (S i) x y Ex Ey).
    + assumption.
    + destruct Hr as [->|(r & t' & -> & Er)]; [now right|]. left. exists r. auto.
    + split; [assumption|]. intros x [<-|Hx]; auto.
Qed.

Lemma all_curves_when first : forall t p s, draws (Some (s, num_at L (px p, py p))) (closed_op first p t :: closed_ops_from first t ++ [Close])
    (map (look L) (segs_from p (t ++ [first]))) -> pptype p = Curve ->
  (forall q, In q (t ++ [first]) -> pptype q = Line \/ pptype q = Curve) ->
  forall q, In q (t ++ [first]) -> pptype q = Curve.
Proof.
  induction t as [|r t IH]; intros p s Hd Hp Ht.
  - cbn in Hd. unfold closed_op in Hd. rewrite Hp in Hd. unfold curve_op, look in Hd. cbn [seg_between sg_kind] in Hd.
    intros q [<-|[]]. destruct (Ht first (or_introl eq_refl)) as [E|]; [|assumption]. rewrite E in Hd. inversion Hd.
  - cbn [closed_ops_from app segs_from map] in Hd. unfold closed_op at 1 in Hd. rewrite Hp in Hd. cbn [hd] in Hd.
    unfold curve_op, look at 1 in Hd. cbn [seg_between sg_kind sg_from sg_to sg_in sg_out] in Hd.
    assert (pptype r = Curve) as Er.
    { destruct (Ht r (or_introl eq_refl)) as [E|]; [|assumption]. rewrite E in Hd. inversion Hd. }
    rewrite Er in Hd. inversion Hd as [| | | |? ? ? ? ? ? ? H1| |]; subst. rewrite at_point in H1.
    intros q [<-|Hq]; [assumption|]. eapply IH; eauto. intros x Hx. apply Ht. now right.
Qed.

Lemma closed_drawn_iff c c' ops : closed c -> into_pen_operations L c = Ok (ops, c') ->
  (forall p t, c' = p :: t -> spread L (c' ++ [p])) ->
  (draws None ops (map (look L) (closed_segments c')) <-> one_kind (closed_segments c')).
Proof.
  intros Hc H Hsp. split; [|now apply closed_drawn with (c := c)]. intros Hd.
  pose proof (into_refigured c ops c' H) as Hr.
  pose proof (is_open_closed c Hc) as [Ho Hn]. destruct (refigure_simple c c' Hn Hr) as (Hs & Hn' & Ho').
  rewrite Ho in Ho'. destruct c' as [|p [|q t]] eqn:E; [cbn in Hn'; lia|cbn in Hn'; lia|].
  specialize (Hsp p (q :: t) eq_refl).
  assert (forall x, In x c' -> pptype x = Line \/ pptype x = Curve) as Ht.
  { subst c'. intros x Hx. apply In_nth_error in Hx as (i & Hx). destruct (Hs i x Hx) as [X|X]; [|assumption]. exfalso.
    destruct (refigure_types c _ Hn Hr) as (_ & _ & Hk & _ & Hcl). destruct i as [|i].
    - injection Hx as ->. cbn in Ho'. rewrite X in Ho'. discriminate.
    - assert (i < length (p :: q :: t)) as Hi by (apply Nat.lt_succ_l; apply nth_error_Some; congruence).
      destruct (idx_ok _ i Hi) as (y & Ey & _). rewrite (Hk i x y Ey Hx) in X. destruct (pa y), (pb x); discriminate. }
  rewrite (closed_ops L c c' p (q :: t) Hc ltac:(congruence) E) in H. rewrite <- E in H. injection H as <-.
  assert (map (op_at L c') (seq 1 (length c' - 1)) = closed_ops_from p (q :: t)) as Em.
  { rewrite <- (closed_ops_map c' p ltac:(congruence) ltac:(now rewrite E) ltac:(rewrite E; cbn; lia) Ht (q :: t) [p]) by (now rewrite E).
    rewrite E. cbn [length]. f_equal. }
  rewrite Em in Hd.
  assert (forall x, In x (q :: t) -> pptype x = Line \/ pptype x = Curve) as Ht1 by (intros x Hx; apply Ht; rewrite E; now right).
  assert (pptype p = Line \/ pptype p = Curve) as Hp by (apply Ht; rewrite E; now left).
  assert (forall k, (forall x, In x (p :: q :: t) -> pptype x = k) -> one_kind (closed_segments (p :: q :: t))) as K.
  { intros k Hk. assert (forall (l : list (point PD)) (y : point PD), (forall x, In x l -> pptype x = k) -> forall s, In s (segs_from y l) -> sg_kind s = k) as G.
    { induction l as [|x l IH]; intros y Hl s; [intros []|]. intros [<-|Hi]; [apply Hl; now left|]. apply (IH x); [|assumption]. intros; apply Hl; now right. }
    intros s s' H1 H2. cbn [closed_segments] in H1, H2.
    assert (forall x, In x ((q :: t) ++ [p]) -> pptype x = k) as Hk2.
    { intros x Hx. apply Hk. apply in_app_or in Hx as [Hx|[<-|[]]]; [now right|now left]. }
    rewrite (G _ _ Hk2 _ H1), (G _ _ Hk2 _ H2). reflexivity. }
  unfold type_at in Hd. rewrite E in Hd. cbn [nth_error] in Hd. cbn [closed_segments] in Hd.
  inversion Hd as [|? ? ? ? H1| | | | |]; clear Hd. rewrite at_point in H1. subst.
  destruct (Ht1 q (or_introl eq_refl)) as [Eq|Eq]; rewrite Eq in H1; cbn [ptype_eqb] in H1.
  - cbn [app] in H1. change (LineTo ?a :: ?b) with (LineTo a :: b) in H1.
    destruct (all_lines_when p (q :: t) p (num_at L (px p, py p))) as [E1 E2]; try assumption.
    + left. exists q. auto.
    + apply (K Line). intros x [<-|Hx]; auto.
  - destruct Hp as [Ep|Ep].
    + exfalso. unfold op_at in H1. cbn [nth_error] in H1. rewrite Ep in H1.
      cbn [app segs_from map] in H1. unfold look at 1 in H1. cbn [seg_between sg_kind] in H1. rewrite Eq in H1. inversion H1.
    + assert (op_at L (p :: q :: t) 0 = closed_op p p (q :: t)) as E0.
      { unfold op_at, closed_op. cbn [nth_error]. rewrite Ep, Ho'. cbn [andb]. unfold next_of. cbn [length].
        rewrite Nat.mod_small by lia. reflexivity. }
      rewrite E0 in H1. cbn [app] in H1.
      pose proof (all_curves_when p (q :: t) p _ H1 Ep) as A.
      apply (K Curve). intros x [<-|Hx]; [assumption|]. apply A.
      * intros y Hy. apply in_app_or in Hy as [Hy|[<-|[]]]; auto.
      * apply in_or_app. now left.
Qed.

Lemma open_drawn_iff c c' ops : opened c -> into_pen_operations L c = Ok (ops, c') -> spread L c' ->
  (draws None ops (map (look L) (open_segments c')) <->
   exists p q, c' = [p; q] /\ pptype q = Curve).
Proof.
  intros Hc H Hsp. pose proof (into_refigured c ops c' H) as Hr.
  pose proof (is_open_opened c Hc) as [Ho Hn]. destruct (refigure_simple c c' Hn Hr) as (Hs & Hn' & Ho').
  split.
  - intros Hd. destruct c' as [|p [|q t]] eqn:E; [cbn in Hn'; lia|cbn in Hn'; lia|].
    assert (pptype q = Line \/ pptype q = Curve) as [Eq|Eq].
    { destruct (refigure_types c _ Hn Hr) as (_ & _ & Hk & _). rewrite (Hk 0 q p eq_refl eq_refl). destruct (pa p), (pb q); cbn; auto. }
    + exfalso. exact (open_line_draws_nothing L c _ ops q Hc H eq_refl Eq _ Hd).
    + destruct t as [|r t]; [exists p, q; auto|]. exfalso.
      destruct (open_skips L c _ ops p q r t Hc H eq_refl Eq _ Hd) as (d' & Ed). cbn [open_segments segs_from map] in Ed.
      unfold look at 1 in Ed. cbn [seg_between sg_kind sg_from sg_to] in Ed. rewrite Eq in Ed.
      apply (Hsp 1 q r eq_refl eq_refl). congruence.
  - intros (p & q & E & Eq). exact (open_two_drawn L c c' ops p q Hc H E Eq).
Qed.

(** * Validity of the operations *)
Lemma regular_valid (x y : iof) b n t : t <> Undefined -> regular x -> regular y -> gp_is_valid (mkGP x y b n t) = true.
Proof.
  intros Ht Hx Hy. unfold gp_is_valid. cbn [gx gy gptype].
  assert (ptype_eqb t Undefined = false) as -> by (destruct (ptype_eqb_spec t Undefined); congruence).
  destruct x as [|f], y as [|g]; cbn in Hx, Hy; try reflexivity;
    repeat match goal with H : _ /\ _ |- _ => destruct H as [? ?] end;
    repeat match goal with H : _ = false |- _ => rewrite H end; reflexivity.
Qed.
Lemma handle_valid p w : regular_place L (px p) (py p) -> regular_handle L (get_handle p w) ->
  gp_is_valid (gp_from_handle L p w) = true.
Proof.
  intros [H1 H2] H. unfold gp_from_handle, handle_or_colocated. destruct (get_handle p w) as [x y|]; apply regular_valid; try discriminate; try assumption; apply H.
Qed.
Lemma curve_op_valid p q : regular_place L (px p) (py p) -> regular_handle L (pa p) ->
  regular_place L (px q) (py q) -> regular_handle L (pb q) ->
  pptype q = Move \/ pptype q = Line \/ pptype q = Curve -> penop_is_valid (curve_op L p q) = true.
Proof.
  intros P1 P2 Q1 Q2 Hq. unfold penop_is_valid, curve_op.
  assert (forall r w, gptype (gp_from_handle L r w) = OffCurve) as G.
  { intros r w. unfold gp_from_handle. now destruct (handle_or_colocated _ _ _ _). }
  rewrite !G. rewrite !handle_valid by assumption. cbn [gp_of_point gptype].
  assert (gp_is_valid (gp_of_point L q) = true) as ->.
  { destruct Q1. apply regular_valid; try assumption. destruct Hq as [->|[->| ->]]; discriminate. }
  destruct Hq as [->|[->| ->]]; reflexivity.
Qed.
Lemma op_at_valid c i : simple_types c -> regular_contour L c -> penop_is_valid (op_at L c i) = true.
Proof.
  intros Hs Hr. unfold op_at. destruct (nth_error c i) as [p|] eqn:Ep; [|reflexivity].
  destruct (Hr p (nth_error_In _ _ Ep)) as (P1 & P2 & P3).
  assert (forall t, pptype p = t -> t <> Undefined -> gp_is_valid (gp_of_point L p) = true) as V.
  { intros t E Hu. destruct P1. apply regular_valid; try assumption. congruence. }
  destruct (Hs i p Ep) as [E|[E|E]]; rewrite E.
  - cbn [penop_is_valid gp_of_point gptype]. rewrite E. cbn [ptype_eqb andb]. eapply V; eauto. discriminate.
  - cbn [penop_is_valid gp_of_point gptype]. rewrite E. cbn [ptype_eqb andb]. eapply V; eauto. discriminate.
  - destruct (is_open c && _).
    + destruct (nth_error c (i - 1)) as [q|] eqn:Eq; [|reflexivity]. destruct (Hr q (nth_error_In _ _ Eq)) as (Q1 & Q2 & Q3).
      apply curve_op_valid; auto.
    + destruct (nth_error c (next_of (length c) i)) as [q|] eqn:Eq; [|reflexivity]. destruct (Hr q (nth_error_In _ _ Eq)) as (Q1 & Q2 & Q3).
      apply curve_op_valid; auto. exact (Hs _ _ Eq).
Qed.

Lemma open_ops_valid c c' ops : opened c -> into_pen_operations L c = Ok (ops, c') -> regular_contour L c' ->
  Forall (fun o => penop_is_valid o = true) ops.
Proof.
  intros Hc H Hr. pose proof (into_refigured c ops c' H) as Hrf. rewrite (open_ops L c c' Hc Hrf) in H. injection H as <-.
  pose proof (is_open_opened c Hc) as [Ho Hn]. destruct (refigure_simple c c' Hn Hrf) as (Hs & _ & _).
  apply Forall_forall. intros o Hin. apply in_app_or in Hin as [Hin|Hin].
  - destruct (type_at c' 1 Line); [destruct Hin|destruct Hin as [<-|[]]; now apply op_at_valid].
  - apply in_map_iff in Hin as (i & <- & _). now apply op_at_valid.
Qed.
Lemma closed_ops_valid c c' ops : closed c -> into_pen_operations L c = Ok (ops, c') ->
  exists g rest, ops = MoveTo g :: rest /\ penop_is_valid (MoveTo g) = false /\
    (regular_contour L c' -> Forall (fun o => penop_is_valid o = true) rest).
Proof.
  intros Hc H. pose proof (into_refigured c ops c' H) as Hrf.
  pose proof (is_open_closed c Hc) as [Ho Hn]. destruct (refigure_simple c c' Hn Hrf) as (Hs & Hn' & Ho').
  destruct c' as [|p t] eqn:E; [cbn in Hn'; lia|].
  rewrite (closed_ops L c c' p t Hc ltac:(congruence) E) in H. injection H as H _. rewrite <- E in *.
  exists (gp_of_point L p). eexists. split; [symmetry; exact H|]. split.
  - cbn [penop_is_valid gp_of_point gptype]. destruct (ptype_eqb_spec (pptype p) Move) as [X|]; [|reflexivity].
    rewrite Ho, E in Ho'. destruct t; [rewrite E in Hn'; cbn in Hn'; lia|]. cbn in Ho'. rewrite X in Ho'. discriminate.
  - intros Hr. apply Forall_forall. intros o Hin. apply in_app_or in Hin as [Hin|Hin].
    + destruct (type_at c' 1 Line); [destruct Hin|destruct Hin as [<-|[]]; now apply op_at_valid].
    + apply in_app_or in Hin as [Hin|[<-|[]]]; [|reflexivity]. apply in_map_iff in Hin as (i & <- & _). now apply op_at_valid.
Qed.
End P.

(** * Splitting *)
Definition pieces_of (st : list (list penop) * list penop) : list (list penop) :=
  if 0 <? length (snd st) then fst st ++ [snd st] else fst st.
Fixpoint stuck_op (begun : bool) (l : list penop) : bool :=
  match l with
  | [] => false
  | MoveTo _ :: t => stuck_op true t
  | Close :: t => if begun then stuck_op false t else true
  | _ :: t => stuck_op begun t
  end.
Definition starts_move (l : list penop) : bool := match l with MoveTo _ :: _ => true | _ => false end.
Fixpoint moves (l : list penop) : nat := match l with [] => 0 | o :: t => (if is_move_to o then 1 else 0) + moves t end.

Lemma split_loop_stuck l : forall ko kc,
  if stuck_op (starts_move kc) l then split_loop (ko, kc) l = Panic
  else exists ko' kc', split_loop (ko, kc) l = Ok (ko', kc') /\
    (kc <> [] -> kc' <> [] /\ length ko' = length ko + moves l).
Proof.
  induction l as [|o l IH]; intros ko kc.
  - cbn. exists ko, kc. split; [reflexivity|]. intros H. split; [assumption|lia].
  - assert (forall o, is_move_to o = false -> starts_move (kc ++ [o]) = starts_move kc) as Hb.
    { intros x H1. destruct kc as [|y kc]; [|reflexivity]. destruct x; try discriminate; reflexivity. }
    destruct o; cbn [stuck_op split_loop split_step is_move_to penop_len Nat.ltb Nat.leb bind moves].
    + match goal with |- context [split_loop (?k, [MoveTo p]) l] => specialize (IH k [MoveTo p]) end. cbn [starts_move] in IH. destruct (stuck_op true l); [exact IH|].
      destruct IH as (ko' & kc' & -> & H). exists ko', kc'. split; [reflexivity|]. intros Hk. destruct H as [H1 H2]; [discriminate|]. split; [assumption|].
      rewrite H2. destruct kc as [|x kc]; [congruence|]. cbn [length]. rewrite app_length. cbn. lia.
    + specialize (IH ko (kc ++ [LineTo p])). rewrite Hb in IH by reflexivity. destruct (stuck_op _ l); [exact IH|].
      destruct IH as (ko' & kc' & -> & H). exists ko', kc'. split; [reflexivity|]. intros _. apply H. destruct kc; discriminate.
    + specialize (IH ko (kc ++ [QuadTo a p])). rewrite Hb in IH by reflexivity. destruct (stuck_op _ l); [exact IH|].
      destruct IH as (ko' & kc' & -> & H). exists ko', kc'. split; [reflexivity|]. intros _. apply H. destruct kc; discriminate.
    + specialize (IH ko (kc ++ [CurveTo a b p])). rewrite Hb in IH by reflexivity. destruct (stuck_op _ l); [exact IH|].
      destruct IH as (ko' & kc' & -> & H). exists ko', kc'. split; [reflexivity|]. intros _. apply H. destruct kc; discriminate.
    + destruct kc as [|[g| | | |] kc]; cbn [starts_move bind]; try reflexivity.
      specialize (IH ko (CurveTo g g g :: kc)). cbn [starts_move] in IH. destruct (stuck_op false l); [exact IH|].
      destruct IH as (ko' & kc' & -> & H). exists ko', kc'. split; [reflexivity|]. intros _. apply H. discriminate.
Qed.

Lemma stuck_op_spec l : forall b, stuck_op b l = true <->
  (b = false /\ exists mid post, l = mid ++ Close :: post /\ Forall neither_move_nor_close_op mid) \/
  (exists pre mid post, l = (pre ++ [Close]) ++ mid ++ Close :: post /\ Forall neither_move_nor_close_op mid).
Proof.
  induction l as [|e l IH]; intros b.
  - split; [discriminate|]. intros [(_ & [|] & ? & E & _)|([|] & ? & ? & E & _)]; discriminate.
  - assert ((exists pre mid post, e :: l = (pre ++ [Close]) ++ mid ++ Close :: post /\ Forall neither_move_nor_close_op mid) <->
      (e = Close /\ exists mid post, l = mid ++ Close :: post /\ Forall neither_move_nor_close_op mid) \/
      (exists pre mid post, l = (pre ++ [Close]) ++ mid ++ Close :: post /\ Forall neither_move_nor_close_op mid)) as HX.
    { split.
      - intros ([|x pre] & mid & post & E & H); cbn in E; injection E as -> E; [left|right]; eauto 6.
      - intros [(-> & mid & post & -> & H)|(pre & mid & post & -> & H)].
        + exists [], mid, post. auto.
        + exists (e :: pre), mid, post. auto. }
    rewrite HX. clear HX.
    assert ((exists mid post, e :: l = mid ++ Close :: post /\ Forall neither_move_nor_close_op mid) <->
      e = Close \/ (neither_move_nor_close_op e /\ exists mid post, l = mid ++ Close :: post /\ Forall neither_move_nor_close_op mid)) as HY.
    { split.
      - intros ([|x mid] & post & E & H); cbn in E; injection E as -> E; [now left|right]. inversion H; subst. eauto.
      - intros [->|(Hn & mid & post & -> & H)].
        + exists [], l. auto.
        + exists (e :: mid), post. auto. }
    rewrite HY. clear HY.
    destruct e; cbn [stuck_op neither_move_nor_close_op].
    + rewrite IH. split.
      * intros [[? _]|H]; [discriminate|]. right. right. exact H.
      * intros [(_ & [?|[[] _]])|[[? _]|H]]; try discriminate. right. exact H.
    + rewrite IH. split.
      * intros [(-> & H)|H]; [left; split; [reflexivity|right; auto]|right; right; exact H].
      * intros [(-> & [?|[_ H]])|[[? _]|H]]; try discriminate; auto.
    + rewrite IH. split.
      * intros [(-> & H)|H]; [left; split; [reflexivity|right; auto]|right; right; exact H].
      * intros [(-> & [?|[_ H]])|[[? _]|H]]; try discriminate; auto.
    + rewrite IH. split.
      * intros [(-> & H)|H]; [left; split; [reflexivity|right; auto]|right; right; exact H].
      * intros [(-> & [?|[_ H]])|[[? _]|H]]; try discriminate; auto.
    + destruct b.
      * rewrite IH. split.
        -- intros [(_ & H)|H]; right; [left; auto|right; exact H].
        -- intros [(? & _)|[[_ H]|H]]; try discriminate; auto.
      * split; [intros _; left; auto|reflexivity].
Qed.
Lemma stray_op l : stray_close_op l <-> stuck_op false l = true.
Proof.
  rewrite stuck_op_spec. unfold stray_close_op. split.
  - intros (pre & mid & post & E & H & [->|(pre' & ->)]); [left|right]; eauto 8.
  - intros [(_ & mid & post & E & H)|(pre & mid & post & E & H)].
    + exists [], mid, post. auto.
    + exists (pre ++ [Close]), mid, post. eauto.
Qed.
Lemma moves_none l : moves l = 0 <-> forall o, In o l -> ~ is_move o.
Proof.
  induction l as [|o l IH]; cbn [moves]; [split; [intros _ ? []|reflexivity]|]. split.
  - intros H x [<-|Hx].
    + intros (g & ->). cbn in H. lia.
    + apply IH; [lia|assumption].
  - intros H. assert (moves l = 0) as -> by (apply IH; intros; apply H; now right).
    destruct o; try reflexivity. exfalso. eapply (H (MoveTo p)); [now left|eexists; reflexivity].
Qed.

Lemma penops_valid_exact (l : list penop) :
  (length l <= 1 -> penops_is_valid l = Ok true) /\
  (2 <= length l -> stray_close_op l -> penops_is_valid l = Panic) /\
  (2 <= length l -> ~ stray_close_op l -> exists b, penops_is_valid l = Ok b /\
     (b = true <-> forall o, In o (tl l) -> ~ is_move o)).
Proof.
  unfold penops_is_valid, split_pen_operations. split; [|split].
  - intros H. destruct (Nat.leb_spec (length l) 1); [reflexivity|lia].
  - intros H Hs. destruct (Nat.leb_spec (length l) 1); [lia|]. apply stray_op in Hs.
    pose proof (split_loop_stuck l [] []) as X. cbn [starts_move] in X. rewrite Hs in X. now rewrite X.
  - intros H Hs. destruct (Nat.leb_spec (length l) 1); [lia|]. rewrite stray_op in Hs. apply not_true_is_false in Hs.
    destruct l as [|o l]; [cbn in H; lia|]. cbn [tl].
    assert (exists kc, split_step ([], []) o = Ok ([], [kc]) /\ stuck_op (starts_move [kc]) l = false) as (kc & E & Hs').
    { destruct o; cbn in Hs |- *; try discriminate; eexists; (split; [reflexivity|exact Hs]). }
    cbn [split_loop]. rewrite E. cbn [bind]. pose proof (split_loop_stuck l [] [kc]) as X. rewrite Hs' in X.
    destruct X as (ko' & kc' & X0 & X). rewrite X0. destruct (X ltac:(discriminate)) as [Y1 Y2]. cbn [bind length Nat.add] in *.
    destruct kc' as [|x kc']; [congruence|]. cbn [length Nat.ltb Nat.leb]. eexists. split; [reflexivity|].
    rewrite <- moves_none, app_length, Y2, Nat.eqb_eq. cbn. lia.
Qed.

(** A proper sequence of subpaths. *)
Lemma split_draw l : Forall neither_move_nor_close_op l -> forall ko kc, split_loop (ko, kc) l = Ok (ko, kc ++ l).
Proof.
  induction 1 as [|o l Ho _ IH]; intros ko kc; cbn [split_loop]; [now rewrite app_nil_r|].
  destruct o; try destruct Ho; cbn [split_step is_move_to penop_len Nat.ltb Nat.leb bind]; rewrite IH, <- app_assoc; reflexivity.
Qed.
Lemma split_app st a b : split_loop st (a ++ b) = (let* st' := split_loop st a in split_loop st' b).
Proof. revert st. induction a as [|o a IH]; intros st; [reflexivity|]. cbn [app split_loop]. destruct (split_step st o); cbn [bind]; auto. Qed.
Lemma split_sub s : proper_subpath s -> forall ko kc, split_loop (ko, kc) (sub_ops s) = Ok (pieces_of (ko, kc), sub_piece s).
Proof.
  intros H ko kc. unfold sub_ops. cbn [split_loop split_step is_move_to bind]. change (if 0 <? length kc then ko ++ [kc] else ko) with (pieces_of (ko, kc)).
  rewrite split_app, split_draw by assumption. cbn [bind]. unfold sub_piece. destruct (sub_closed s); reflexivity.
Qed.
Lemma split_subs ss : Forall proper_subpath ss -> forall ko kc, exists st,
  split_loop (ko, kc) (concat (map sub_ops ss)) = Ok st /\ pieces_of st = pieces_of (ko, kc) ++ map sub_piece ss.
Proof.
  induction 1 as [|s ss Hs _ IH]; intros ko kc; cbn [map concat].
  - exists (ko, kc). split; [reflexivity|]. now rewrite app_nil_r.
  - rewrite split_app, split_sub by assumption. cbn [bind]. destruct (IH (pieces_of (ko, kc)) (sub_piece s)) as (st & E & P).
    exists st. split; [assumption|]. rewrite P. unfold pieces_of at 1. cbn [snd fst sub_piece length Nat.ltb Nat.leb]. now rewrite <- app_assoc.
Qed.
Lemma split_exact ss : Forall proper_subpath ss -> 2 <= length (concat (map sub_ops ss)) ->
  split_pen_operations (concat (map sub_ops ss)) = Ok (map sub_piece ss).
Proof.
  intros H Hn. unfold split_pen_operations. destruct (Nat.leb_spec (length (concat (map sub_ops ss))) 1); [lia|].
  destruct (split_subs ss H [] []) as ([ko kc] & E & P). rewrite E. cbn [bind]. f_equal. exact P.
Qed.
