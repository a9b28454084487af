(** Kurbo paths to outlines and back. *)
Require Import Coq.Lists.List Coq.Arith.Arith Coq.Bool.Bool Coq.QArith.QArith Coq.micromega.Lia Coq.Floats.SpecFloat.
Require Import Verif.Model.Base Verif.Model.Float Verif.Model.Num Verif.Model.Point Verif.Model.Contour
  Verif.Model.Refigure Verif.Model.Penops Verif.Model.Kurbo Verif.Spec.ContourSpec Verif.Spec.PathSpec
  Verif.Facts.FloatFacts Verif.Facts.ContourFacts Verif.Facts.RefigureFacts Verif.Facts.PenFacts.
Import ListNotations.
Local Open Scope nat_scope.

Section K.
Context (L : numlib) {PD : Type}.

(** * Structural form of the loop over the operations of a contour *)
Fixpoint walk (first : penop) (l : list penop) : res (contour PD) :=
  match l with
  | [] => Ok []
  | el :: t =>
      let* ps := outline_point el (penop_points el) (penop_points (hd first t)) in
      let* rest := walk first t in
      Ok (ps ++ rest)
  end.

Lemma outline_points_walk skc first : nth_error skc 0 = Some first ->
  forall l pre, skc = pre ++ l -> outline_points skc (seq (length pre) (length l)) = walk first l.
Proof.
  intros Hf. induction l as [|el l IH]; intros pre E; [reflexivity|].
  cbn [length seq outline_points walk].
  assert (nth_error skc (length pre) = Some el) as E1 by (rewrite E, nth_error_app2, Nat.sub_diag by lia; reflexivity).
  rewrite (proj2 (idx_nth _ _ _) E1). cbn [bind].
  assert (length skc = length pre + S (length l)) as Hl by (rewrite E, app_length; reflexivity).
  assert (idx skc (if length pre =? length skc - 1 then 0 else length pre + 1) = Ok (hd first l)) as ->.
  { apply idx_nth. destruct l as [|x l]; cbn [hd length] in *.
    - rewrite Hl. destruct (Nat.eqb_spec (length pre) (length pre + 1 - 1)); [assumption|lia].
    - destruct (Nat.eqb_spec (length pre) (length skc - 1)); [lia|]. rewrite E, nth_error_app2 by lia.
      replace (length pre + 1 - length pre) with 1 by lia. reflexivity. }
  cbn [bind]. destruct (outline_point el _ _); cbn [bind]; [|reflexivity|reflexivity].
  specialize (IH (pre ++ [el])). rewrite app_length in IH. cbn [length] in IH.
  replace (S (length pre)) with (length pre + 1) by lia. rewrite IH by (rewrite E, <- app_assoc; reflexivity). reflexivity.
Qed.

Lemma penops_to_contour_walk first t :
  penops_to_contour (PD := PD) (first :: t) = (let* c := walk first (first :: t) in Ok (merge_ends c)).
Proof.
  unfold penops_to_contour. change (seq 0 ?n) with (seq (length (@nil penop)) n).
  now rewrite (outline_points_walk (first :: t) first eq_refl (first :: t) [] eq_refl).
Qed.

(** * Splitting *)
Definition flush (st : list (list penop) * list penop) : list (list penop) :=
  if 0 <? length (snd st) then fst st ++ [snd st] else fst st.

Lemma split_loop_app st a b : split_loop st (a ++ b) = (let* st' := split_loop st a in split_loop st' b).
Proof. revert st. induction a as [|o a IH]; intros st; [reflexivity|]. cbn [app split_loop]. destruct (split_step st o); cbn [bind]; auto. Qed.

Definition solid (o : penop) : Prop := is_move_to o = false /\ penop_len o <> 0.
Lemma split_solid l : Forall solid l -> forall ko kc, split_loop (ko, kc) l = Ok (ko, kc ++ l).
Proof.
  induction 1 as [|o l [H1 H2] _ IH]; intros ko kc; cbn [split_loop]; [now rewrite app_nil_r|].
  unfold split_step. rewrite H1. destruct (Nat.ltb_spec 0 (penop_len o)); [|lia]. cbn [bind].
  rewrite IH, <- app_assoc. reflexivity.
Qed.

Definition gp (p : f32 * f32) (t : ptype) : glifpoint := gp_from_x_y_type L (fst p) (snd p) t.
Definition curve_of (s : cubic) : penop := CurveTo (gp (c_to s) OffCurve) (gp (c_two s) OffCurve) (gp (c_one s) Curve).
Definition piece (l : closed_path) : list penop :=
  let g := gp (l_start l) Move in CurveTo g g g :: map curve_of (l_segs l).

Lemma gp_wide p t : kept2 L p -> gp_of_kpoint L (wide p) t = gp p t.
Proof.
  intros [[V1 _] [V2 _]]. unfold gp_of_kpoint, gp, wide. cbn [fst snd]. now rewrite !f32_of_f64_of_f32 by assumption.
Qed.

Lemma elements_ops l : closed_cubic L l ->
  map (penop_of_pathel L) (elements l) = MoveTo (gp (l_start l) Move) :: map curve_of (l_segs l) ++ [Close].
Proof.
  intros (_ & _ & Hs & Hf). unfold elements. cbn [map]. rewrite map_app, map_map. cbn [map penop_of_pathel].
  rewrite gp_wide by assumption. f_equal. f_equal.
  induction Hf as [|s t (H1 & H2 & H3) _ IH]; [reflexivity|]. cbn [map]. rewrite !gp_wide by assumption. now rewrite IH.
Qed.

Lemma split_piece l ko kc : closed_cubic L l ->
  split_loop (ko, kc) (map (penop_of_pathel L) (elements l)) = Ok (flush (ko, kc), piece l).
Proof.
  intros H. rewrite elements_ops by assumption. cbn [split_loop split_step is_move_to bind].
  rewrite split_loop_app, split_solid.
  - cbn [bind split_loop split_step is_move_to penop_len Nat.ltb Nat.leb app]. reflexivity.
  - apply Forall_forall. intros o Ho. apply in_map_iff in Ho as (s & <- & _). split; [reflexivity|discriminate].
Qed.

Lemma split_pieces ls : Forall (closed_cubic L) ls -> forall ko kc, exists st,
  split_loop (ko, kc) (map (penop_of_pathel L) (concat (map elements ls))) = Ok st /\
  flush st = flush (ko, kc) ++ map piece ls.
Proof.
  induction 1 as [|l ls Hl _ IH]; intros ko kc.
  - eexists. split; [reflexivity|]. cbn. now rewrite app_nil_r.
  - cbn [map concat]. rewrite map_app, split_loop_app, split_piece by assumption. cbn [bind].
    destruct (IH (flush (ko, kc)) (piece l)) as (st & E & Hf). exists st. split; [assumption|].
    rewrite Hf. unfold flush at 1. cbn [snd fst piece length Nat.ltb Nat.leb]. now rewrite <- app_assoc.
Qed.

Lemma split_all ls : Forall (closed_cubic L) ls -> ls <> [] ->
  split_pen_operations (map (penop_of_pathel L) (concat (map elements ls))) = Ok (map piece ls).
Proof.
  intros H Hne. unfold split_pen_operations.
  destruct (split_pieces ls H [] []) as (st & E & Hf). rewrite E. cbn [bind].
  assert ((length (map (penop_of_pathel L) (concat (map elements ls))) <=? 1) = false) as ->.
  { destruct ls as [|l ls]; [congruence|]. inversion H as [|? ? Hl]. cbn [map concat]. rewrite map_app, app_length, elements_ops by assumption.
    cbn [length]. rewrite app_length, map_length. cbn [length]. destruct Hl. apply Nat.leb_gt. lia. }
  destruct st as [ko kc]. change (Ok (flush (ko, kc)) = Ok (map piece ls)). now rewrite Hf.
Qed.

(** * One contour *)
Lemma kept_f32 p : kept2 L p -> f32_of_iof (iof_of_f32 L (fst p)) = fst p /\ f32_of_iof (iof_of_f32 L (snd p)) = snd p.
Proof. intros [(_ & _ & H1 & _) (_ & _ & H2 & _)]. auto. Qed.

Definition last_point (l : list cubic) (start before : f32 * f32) (first : penop) : list (point PD) :=
  let p := last (map c_to l) start in
  let b := last (map c_two l) before in
  match penop_points first with
  | [_; _; q] => [mkPoint (fst p) (snd p) (handle_at_gp q) (At (fst b) (snd b)) None Curve false None]
  | _ => []
  end.

Lemma last_map_cons {A B} (f : A -> B) l x d : last (map f (x :: l)) d = last (map f l) (f x).
Proof.
  cbn [map]. destruct l as [|y l]; [reflexivity|]. cbn [map]. generalize (f y) as z. revert d.
  generalize (map f l) as m. clear. intros m d z. change (last (z :: m) d = last (z :: m) (f x)).
  revert z. induction m as [|w m IH]; intros z; [reflexivity|]. exact (IH w).
Qed.

Lemma walk_cons first el t : walk first (el :: t) =
  (let* ps := outline_point el (penop_points el) (penop_points (hd first t)) in
   let* rest := walk first t in Ok (ps ++ rest)).
Proof. reflexivity. Qed.
Lemma walk_curves first g1 g2 g3 : first = CurveTo g1 g2 g3 -> forall segs start before el,
  kept2 L start -> kept2 L before -> Forall (kept_cubic L) segs ->
  match penop_points el with
  | [p; b; _] => f32_of_iof (gx p) = fst start /\ f32_of_iof (gy p) = snd start /\
                 f32_of_iof (gx b) = fst before /\ f32_of_iof (gy b) = snd before
  | _ => False end -> ptype_of_penop el = Curve ->
  walk first (el :: map curve_of segs) = Ok (points_of start before segs ++ last_point segs start before first).
Proof.
  intros ->. induction segs as [|s segs IH]; intros start before el Hs Hb Hf Hel Ht; cbn [map]; rewrite walk_cons; cbn [hd].
  - cbn [points_of app]. unfold last_point. cbn [map last penop_points].
    destruct (penop_points el) as [|p [|b [|q [|]]]] eqn:E; try contradiction. destruct Hel as (E1 & E2 & E3 & E4).
    unfold outline_point. rewrite Ht. cbn [walk nth_error bind app]. unfold handle_at_gp at 2. rewrite E1, E2, E3, E4. reflexivity.
  - inversion Hf as [|? ? (H1 & H2 & H3) Hf']; subst.
    specialize (IH (c_to s) (c_two s) (curve_of s) H3 H2 Hf').
    destruct (penop_points el) as [|p [|b [|q [|]]]] eqn:E; try contradiction. destruct Hel as (E1 & E2 & E3 & E4).
    unfold outline_point at 1. rewrite Ht. cbn [penop_points curve_of nth_error bind].
    rewrite IH.
    + cbn [bind points_of app]. unfold handle_at_gp. cbn [gx gy gp gp_from_x_y_type]. rewrite E1, E2, E3, E4.
      destruct (kept_f32 _ H1) as [-> ->]. unfold last_point. rewrite !last_map_cons. reflexivity.
    + cbn [curve_of penop_points gp gp_from_x_y_type gx gy]. pose proof (kept_f32 _ H3) as [? ?]. pose proof (kept_f32 _ H2) as [? ?]. auto.
    + reflexivity.
Qed.

Lemma piece_contour l : closed_cubic L l -> penops_to_contour (PD := PD) (piece l) = Ok (contour_of l).
Proof.
  intros (Hn & He & Hs & Hf). unfold piece. rewrite penops_to_contour_walk.
  rewrite (walk_curves _ _ _ _ eq_refl (l_segs l) (l_start l) (l_start l)); [|assumption|assumption|assumption| |reflexivity].
  2:{ cbn [penop_points gp gp_from_x_y_type gx gy]. pose proof (kept_f32 _ Hs) as [? ?]. auto. }
  cbn [bind]. f_equal. unfold last_point. cbn [penop_points]. unfold end_of in He.
  set (lp := mkPoint _ _ _ _ _ _ _ _). unfold contour_of.
  destruct (l_segs l) as [|s [|s' t]] eqn:El; [cbn in Hn; lia|cbn in Hn; lia|].
  set (c := points_of (l_start l) (l_start l) (s :: s' :: t) ++ [lp]).
  assert (rev c = lp :: rev (points_of (l_start l) (l_start l) (s :: s' :: t))) as Hr by (unfold c; now rewrite rev_app_distr).
  assert (exists x y z, c = x :: y :: z) as (x & y & z & Ec) by (unfold c; cbn [points_of app]; eauto).
  unfold merge_ends. rewrite Ec. rewrite Ec in Hr. rewrite Hr. rewrite <- Ec.
  assert (px lp = fst (last (map c_to (s :: s' :: t)) (l_start l)) /\ py lp = snd (last (map c_to (s :: s' :: t)) (l_start l))) as [-> ->] by (split; reflexivity).
  assert (px x = fst (l_start l) /\ py x = snd (l_start l)) as [-> ->].
  { unfold c in Ec. cbn [points_of app] in Ec. injection Ec as <- _ _. split; reflexivity. }
  destruct He as [-> ->]. cbn [andb]. unfold c. rewrite removelast_last. reflexivity.
Qed.

Lemma from_kurbo_closed ls : Forall (closed_cubic L) ls -> ls <> [] ->
  outline_from_kurbo (PD := PD) L (concat (map elements ls)) = Ok (map contour_of ls).
Proof.
  intros H Hne. unfold outline_from_kurbo. rewrite split_all by assumption. cbn [bind].
  unfold penops_to_outline. clear Hne. induction H as [|l ls Hl _ IH]; [reflexivity|].
  cbn [map mapM]. rewrite piece_contour by assumption. cbn [bind]. rewrite IH. reflexivity.
Qed.

(** * And back *)
Lemma feq_wide x y : valid32 y = true -> feq x y = true -> feq (f64_of_f32 x) (f64_of_f32 y) = true.
Proof.
  intros V H. destruct (feq_true x y H) as [->|(s & t & -> & ->)].
  - apply feq_nan in H as [H _]. apply feq_refl. pose proof (f32_of_f64_of_f32 y V) as E.
    destruct (f64_of_f32 y); cbn in *; try reflexivity. subst. discriminate.
  - destruct s, t; reflexivity.
Qed.
Lemma same_wide p q : kept2 L q -> same_place p q -> same64 (wide p) (wide q).
Proof. intros [[V1 _] [V2 _]] [H1 H2]. split; apply feq_wide; assumption. Qed.
Lemma same_place_refl p : kept2 L p -> same_place p p.
Proof. intros [(_ & N1 & _) (_ & N2 & _)]. split; now apply feq_refl. Qed.
Lemma same_place_sym p q : same_place p q -> same_place q p.
Proof. intros [H1 H2]. split; now rewrite feq_sym. Qed.
Lemma as_kept p : kept2 L p -> (f64_of_iof (iof_of_f32 L (fst p)), f64_of_iof (iof_of_f32 L (snd p))) = wide p.
Proof. intros [(_ & _ & _ & E1) (_ & _ & _ & E2)]. unfold wide. now rewrite E1, E2. Qed.

(** A handle that is kept or tidied away is still at the same place. *)
Lemma handle_same (p : point PD) h h' (w : f32 * f32) : tidied p h h' -> h = At (fst w) (snd w) ->
  kept2 L w -> kept2 L (px p, py p) ->
  kept2 L (handle_at (px p, py p) h') /\ same_place (handle_at (px p, py p) h') w.
Proof.
  intros [[(x & y & E & F1 & F2) ->]|[_ ->]] -> Hw Hp; cbn [handle_at].
  - injection E as <- <-. split; [assumption|]. apply same_place_sym. now split.
  - destruct w. split; [assumption|]. now apply same_place_refl.
Qed.

Lemma knock_At x y h : (exists a b, h = At a b) -> knock x y h = Colocated ->
  exists a b, h = At a b /\ feq a x = true /\ feq b y = true.
Proof.
  intros (a & b & ->) E. exists a, b. split; [reflexivity|]. unfold knock in E.
  destruct (feq a x && feq b y) eqn:F; [|discriminate]. now apply andb_true_iff in F.
Qed.

(** Point i of the contour of a path. *)
Lemma points_of_nth (l : list cubic) : forall start before i (p : point PD), nth_error (points_of start before l) i = Some p ->
  exists s, nth_error l i = Some s /\
    (px p, py p) = last (map c_to (firstn i l)) start /\
    pa p = At (fst (c_one s)) (snd (c_one s)) /\
    pb p = (let b := last (map c_two (firstn i l)) before in At (fst b) (snd b)) /\
    pptype p = Curve.
Proof.
  induction l as [|s l IH]; intros start before i p; [destruct i; discriminate|].
  destruct i as [|i]; cbn [points_of nth_error].
  - intros E. injection E as <-. exists s. cbn. destruct start. repeat split.
  - intros E. destruct (IH _ _ _ _ E) as (s' & H1 & H2 & H3 & H4 & H5). exists s'. split; [assumption|].
    cbn [firstn]. rewrite !last_map_cons. repeat split; assumption.
Qed.

Lemma points_of_length (l : list cubic) : forall start before, length (points_of (PD := PD) start before l) = length l.
Proof. induction l as [|s l IH]; intros; cbn; auto. Qed.

Lemma bent_nth (l : list cubic) : forall start, bent start l <->
  forall j s, nth_error l j = Some s ->
    ~ (same_place (c_one s) (last (map c_to (firstn j l)) start) /\ same_place (c_two s) (c_to s)).
Proof.
  induction l as [|s l IH]; intros start; cbn [bent].
  - split; [intros _ [|j] s; discriminate|tauto].
  - rewrite IH. split.
    + intros [H0 H] [|j] s' E; cbn [nth_error] in E.
      * injection E as <-. exact H0.
      * specialize (H j s' E). cbn [firstn]. now rewrite last_map_cons.
    + intros H. split; [exact (H 0 s eq_refl)|]. intros j s' E. specialize (H (S j) s' E).
      cbn [firstn] in H. now rewrite last_map_cons in H.
Qed.

Lemma firstn_snoc {A} (l : list A) j s : nth_error l j = Some s -> firstn (S j) l = firstn j l ++ [s].
Proof.
  revert j. induction l as [|x l IH]; intros [|j] E; try discriminate; cbn [nth_error] in E.
  - injection E as ->. reflexivity.
  - cbn [firstn app]. f_equal. now apply IH.
Qed.
Lemma last_firstn {A B} (f : A -> B) (l : list A) j s d : nth_error l j = Some s -> last (map f (firstn (S j) l)) d = f s.
Proof. intros E. rewrite (firstn_snoc l j s E), map_app. cbn [map]. apply last_last. Qed.
Lemma nth_removelast {A} (l : list A) j : nth_error (removelast l) j = if S j <? length l then nth_error l j else None.
Proof.
  revert j. induction l as [|x l IH]; intros j; [now destruct j|]. destruct l as [|y l].
  - destruct j; reflexivity.
  - cbn [removelast]. destruct j as [|j]; [reflexivity|]. cbn [nth_error]. rewrite IH. cbn [length]. reflexivity.
Qed.
Lemma firstn_removelast {A} (l : list A) j : S j <= length l -> firstn j (removelast l) = firstn j l.
Proof.
  revert j. induction l as [|x l IH]; intros j H; [reflexivity|]. destruct l as [|y l].
  - cbn in H. replace j with 0 by lia. reflexivity.
  - cbn [removelast]. destruct j as [|j]; [reflexivity|]. cbn [firstn]. f_equal. apply IH. cbn in *. lia.
Qed.

Definition curved (p : point PD) : Prop := pptype p = Curve.

(** Which points come out of refiguring as lines. *)
Lemma contour_types l c' : closed_cubic L l -> refigure (contour_of (PD := PD) l) = Ok c' ->
  forall j p, nth_error c' (S j) = Some p ->
  (pptype p = Curve \/ pptype p = Line) /\
  (pptype p = Line <-> exists s, nth_error (l_segs l) j = Some s /\
     same_place (c_one s) (last (map c_to (firstn j (l_segs l))) (l_start l)) /\ same_place (c_two s) (c_to s)).
Proof.
  intros (Hn & _) H j p Hp. destruct (refigure_after _ _ H) as [Hl Ha]. rewrite Ha in Hp.
  set (c := contour_of l) in *. destruct (nth_error c (S j)) as [p1|] eqn:E1; [|discriminate].
  injection Hp as <-. cbn [out with_ptype pptype].
  assert (length c = length (l_segs l)) as Hlen by apply points_of_length.
  assert (S j < length c) as Hj by (apply nth_error_Some; congruence).
  destruct (idx_ok c j ltac:(lia)) as (p0 & E0 & _).
  unfold new_type. destruct (Nat.eqb_spec (length c) 1); [lia|]. rewrite E0.
  destruct (points_of_nth _ _ _ _ _ E0) as (s0 & S0 & X0 & A0 & _ & _).
  destruct (points_of_nth _ _ _ _ _ E1) as (s1 & S1 & X1 & _ & B1 & _).
  rewrite (last_firstn c_two _ j s0 _ S0) in B1. rewrite (last_firstn c_to _ j s0 _ S0) in X1. cbn zeta in B1.
  unfold knocked. cbn [with_a with_b pa pb px py]. rewrite A0, B1.
  split.
  - destruct (knock (px p0) (py p0) _), (knock (px p1) (py p1) _); cbn; auto.
  - rewrite <- X0. unfold same_place. cbn [fst snd]. unfold knock.
    split.
    + intros K. exists s0. split; [assumption|]. rewrite <- X1. cbn [fst snd].
      destruct (feq (fst (c_one s0)) (px p0) && feq (snd (c_one s0)) (py p0)) eqn:F1; [|discriminate].
      destruct (feq (fst (c_two s0)) (px p1) && feq (snd (c_two s0)) (py p1)) eqn:F2; [|discriminate].
      apply andb_true_iff in F1 as [-> ->]. apply andb_true_iff in F2 as [-> ->]. auto.
    + intros (s & Es & [F1 F2] & [F3 F4]). assert (s = s0) as -> by congruence. rewrite <- X1 in F3, F4. cbn [fst snd] in F3, F4. rewrite F1, F2, F3, F4. reflexivity.
Qed.

Lemma contour_first l c' : closed_cubic L l -> refigure (contour_of (PD := PD) l) = Ok c' ->
  forall p, nth_error c' 0 = Some p -> pptype p = Curve.
Proof.
  intros (Hn & _) H p Hp. destruct (refigure_after _ _ H) as [Hl Ha]. rewrite Ha in Hp.
  set (c := contour_of l) in *. destruct (nth_error c 0) as [p1|] eqn:E1; [|discriminate].
  injection Hp as <-. cbn [out with_ptype pptype].
  assert (length c = length (l_segs l)) as Hlen by apply points_of_length.
  destruct (points_of_nth _ _ _ _ _ E1) as (s1 & S1 & X1 & _ & _ & T1).
  assert (is_open c = false) as Ho.
  { destruct c as [|x [|y c]]; cbn in Hlen; try lia. cbn in E1. injection E1 as ->. cbn. now rewrite T1. }
  unfold new_type. destruct (Nat.eqb_spec (length c) 1); [lia|]. rewrite Ho.
  destruct (idx_ok c (length c - 1)) as (l0 & E0 & _); [lia|]. rewrite E0.
  destruct (points_of_nth _ _ _ _ _ E0) as (s0 & S0 & X0 & -> & _ & _). reflexivity.
Qed.

Definition curve_el (s : cubic) : pathel := KCurveTo (wide (c_one s)) (wide (c_two s)) (wide (c_to s)).

Lemma el_same s (p q : point PD) : kept_cubic L s ->
  kept2 L (handle_at (px p, py p) (pa p)) -> same_place (handle_at (px p, py p) (pa p)) (c_one s) ->
  kept2 L (handle_at (px q, py q) (pb q)) -> same_place (handle_at (px q, py q) (pb q)) (c_two s) ->
  kept2 L (px q, py q) -> same_place (px q, py q) (c_to s) ->
  same_element (pathel_of_penop (curve_op L p q)) (curve_el s).
Proof.
  intros (K1 & K2 & K3) H1 H2 H3 H4 H5 H6. unfold curve_op, pathel_of_penop, curve_el, same_element, as_kpoint.
  assert (forall (p : point PD) w, w <> Neither -> kept2 L (handle_at (px p, py p) (get_handle p w)) ->
    (f64_of_iof (gx (gp_from_handle L p w)), f64_of_iof (gy (gp_from_handle L p w))) = wide (handle_at (px p, py p) (get_handle p w))) as X.
  { intros r w _ Hk. rewrite <- as_kept by assumption. unfold gp_from_handle, handle_or_colocated.
    destruct (get_handle r w); reflexivity. }
  rewrite (X p WA), (X q WB) by (try discriminate; assumption). cbn [get_handle].
  change (f64_of_iof (gx (gp_of_point L q)), f64_of_iof (gy (gp_of_point L q)))
    with (f64_of_iof (iof_of_f32 L (fst (px q, py q))), f64_of_iof (iof_of_f32 L (snd (px q, py q)))).
  rewrite as_kept by assumption. repeat split; now apply same_wide.
Qed.

Lemma curves_same segs : forall start before (p' : point PD) ps' pend,
  kept2 L start -> Forall (kept_cubic L) segs -> kept2 L before ->
  Forall2 same_but_tidied (points_of start before segs) (p' :: ps') ->
  kept2 L (px pend, py pend) -> same_place (px pend, py pend) (end_of start segs) ->
  kept2 L (handle_at (px pend, py pend) (pb pend)) ->
  same_place (handle_at (px pend, py pend) (pb pend)) (last (map c_two segs) before) ->
  Forall2 same_element (map pathel_of_penop (curves_from L p' (ps' ++ [pend]))) (map curve_el segs).
Proof.
  induction segs as [|s segs IH]; intros start before p' ps' pend Hs Hf Hb HF Hpe Hse Hkb Hsb; [inversion HF|].
  cbn [points_of] in HF. inversion HF as [|p0 ? l0 ? Hp HF']; subst.
  inversion Hf as [|? ? Hk Hf']; subst. pose proof Hk as (K1 & K2 & K3).
  destruct Hp as (X & Y & _ & _ & _ & TA & _). cbn [px py pa] in X, Y, TA.
  assert ((px p', py p') = start) as Ep by (rewrite X, Y; now destruct start).
  pose proof (handle_same _ _ _ (c_one s) TA eq_refl K1) as HA. cbn [px py] in HA.
  rewrite <- (surjective_pairing start) in HA. specialize (HA Hs). rewrite <- Ep in HA. destruct HA as [HA1 HA2].
  unfold end_of in Hse. rewrite last_map_cons in Hse, Hsb.
  destruct segs as [|s2 segs].
  - inversion HF'; subst. cbn [app curves_from map]. constructor; [|constructor].
    apply el_same; try assumption.
  - destruct ps' as [|q' ps']; [inversion HF'|]. cbn [app curves_from map]. constructor.
    + cbn [points_of] in HF'. inversion HF' as [|? ? ? ? Hq _]; subst.
      destruct Hq as (X2 & Y2 & _ & _ & _ & _ & TB). cbn [px py pb] in X2, Y2, TB.
      assert ((px q', py q') = c_to s) as Eq by (rewrite X2, Y2; now destruct (c_to s)).
      pose proof (handle_same _ _ _ (c_two s) TB eq_refl K2) as HB. cbn [px py] in HB.
      rewrite <- (surjective_pairing (c_to s)) in HB. specialize (HB K3). rewrite <- Eq in HB. destruct HB as [HB1 HB2].
      apply el_same; try assumption; rewrite Eq; [assumption|now apply same_place_refl].
    + apply (IH (c_to s) (c_two s)); assumption.
Qed.

Lemma contour_of_closed l : closed_cubic L l -> closed (contour_of (PD := PD) l).
Proof.
  intros (Hn & _). unfold contour_of. destruct (l_segs l) as [|s [|s' t]]; cbn in Hn; try lia.
  cbn [points_of]. do 3 eexists. split; [reflexivity|discriminate].
Qed.

Lemma nth_error_Forall2 {A B} (R : A -> B -> Prop) l : forall l', length l = length l' ->
  (forall i x y, nth_error l i = Some x -> nth_error l' i = Some y -> R x y) -> Forall2 R l l'.
Proof.
  induction l as [|x l IH]; intros [|y l'] Hl H; try discriminate; constructor.
  - exact (H 0 x y eq_refl eq_refl).
  - apply IH; [now injection Hl|]. intros i. exact (H (S i)).
Qed.

Lemma last_kept l : closed_cubic L l -> kept2 L (last (map c_two (l_segs l)) (l_start l)).
Proof.
  intros (Hn & _ & Hs & Hf). destruct (l_segs l) as [|s t] using rev_ind; [exact Hs|].
  rewrite map_app. cbn [map]. rewrite last_last. apply Forall_app in Hf as [_ Hf]. inversion Hf as [|? ? (_ & K & _)]; assumption.
Qed.

Lemma back_closed l : closed_cubic L l -> bent (l_start l) (removelast (l_segs l)) ->
  exists els, contour_into_kurbo_vec (PD := PD) L (contour_of l) = Ok els /\ Forall2 same_element els (elements l).
Proof.
  intros Hl Hb. pose proof (contour_of_closed l Hl) as Hc. pose proof Hl as (Hn & He & Hs & Hf).
  destruct (refigure_total (contour_of (PD := PD) l)) as (c' & Hr & _).
  assert (2 <= length (contour_of (PD := PD) l)) as Hn2 by (unfold contour_of; now rewrite points_of_length).
  destruct (refigure_types _ _ Hn2 Hr) as (Hlen & Hsame & _).
  destruct c' as [|p' ps'] eqn:E; [cbn in Hlen; lia|].
  assert (Forall2 same_but_tidied (contour_of (PD := PD) l) (p' :: ps')) as HF.
  { apply nth_error_Forall2; [now symmetry|]. intros i x y Hx Hy. eapply Hsame; eassumption. }
  assert (forall q, In q (p' :: ps') -> pptype q = Curve) as Ht.
  { intros q Hq. apply In_nth_error in Hq as (i & Hi). destruct i as [|j].
    - eapply contour_first; [eassumption|exact Hr|exact Hi].
    - destruct (contour_types l _ Hl Hr j q Hi) as [[?|X] HL]; [assumption|].
      apply HL in X as (s & Es & X). exfalso. rewrite bent_nth in Hb.
      assert (S j < length (p' :: ps')) as Hj by (apply nth_error_Some; congruence).
      rewrite Hlen in Hj. unfold contour_of in Hj. rewrite points_of_length in Hj.
      apply (Hb j s); [rewrite nth_removelast|rewrite firstn_removelast by lia; exact X].
      destruct (Nat.ltb_spec (S j) (length (l_segs l))); [assumption|lia]. }
  unfold contour_into_kurbo_vec. rewrite (all_curve_ops L _ _ p' ps' Hc Hr eq_refl Ht). cbn [bind fst].
  eexists. split; [reflexivity|]. cbn [map]. rewrite map_app. unfold elements.
  assert ((px p', py p') = l_start l /\ kept2 L (handle_at (px p', py p') (pb p')) /\ same_place (handle_at (px p', py p') (pb p')) (last (map c_two (l_segs l)) (l_start l))) as (Ep & Kb & Sb).
  { unfold contour_of in HF. pose proof (last_kept l Hl) as HK. destruct (l_segs l) as [|s t]; [cbn in Hn; lia|]. cbn [points_of] in HF.
    inversion HF as [|? ? ? ? Hq _]; subst.
    destruct Hq as (X2 & Y2 & _ & _ & _ & _ & TB). cbn [px py pb] in X2, Y2, TB.
    assert ((px p', py p') = l_start l) as Eq by (rewrite X2, Y2; now destruct (l_start l)).
    split; [assumption|].
    pose proof (handle_same _ _ _ _ TB eq_refl HK) as HB. cbn [px py] in HB.
    rewrite <- (surjective_pairing (l_start l)) in HB. specialize (HB Hs). rewrite <- Eq in HB at 1 2. exact HB. }
  constructor.
  - cbn [pathel_of_penop same_element]. unfold as_kpoint. cbn [gp_of_point gx gy].
    pose proof (as_kept (l_start l) Hs) as X. rewrite <- Ep in X at 1 2. cbn [fst snd] in X. rewrite X.
    apply same_wide; [assumption|now apply same_place_refl].
  - apply Forall2_app; [|constructor; [exact I|constructor]].
    apply (curves_same (l_segs l) (l_start l) (last (map c_two (l_segs l)) (l_start l))); try assumption.
    + now apply last_kept.
    + rewrite Ep. assumption.
    + rewrite Ep. apply same_place_sym. exact He.
    + replace (last (map c_two (l_segs l)) (last (map c_two (l_segs l)) (l_start l))) with (last (map c_two (l_segs l)) (l_start l)); [assumption|].
      destruct (l_segs l) as [|s t]; [cbn in Hn; lia|]. now rewrite !last_map_cons.
Qed.

Lemma back_only_bent l els : closed_cubic L l ->
  contour_into_kurbo_vec (PD := PD) L (contour_of l) = Ok els -> Forall2 same_element els (elements l) ->
  bent (l_start l) (removelast (l_segs l)).
Proof.
  intros Hl H Hsame. pose proof (contour_of_closed l Hl) as Hc. pose proof Hl as (Hn & He & Hs & Hf).
  destruct (refigure_total (contour_of (PD := PD) l)) as (c' & Hr & _).
  assert (2 <= length (contour_of (PD := PD) l)) as Hn2 by (unfold contour_of; now rewrite points_of_length).
  destruct (refigure_types _ _ Hn2 Hr) as (Hlen & _).
  destruct c' as [|p' ps'] eqn:E; [cbn in Hlen; lia|]. rewrite <- E in *.
  unfold contour_into_kurbo_vec in H. rewrite (closed_ops L _ c' p' ps' Hc Hr E) in H. cbn [bind fst] in H. injection H as <-.
  rewrite bent_nth. intros j s Es X. rewrite nth_removelast in Es.
  destruct (Nat.ltb_spec (S j) (length (l_segs l))) as [Hj|]; [|discriminate].
  rewrite firstn_removelast in X by lia.
  assert (length c' = length (l_segs l)) as Hl' by (rewrite Hlen; unfold contour_of; apply points_of_length).
  destruct (idx_ok c' (S j)) as (q & Eq & _); [lia|].
  destruct (contour_types l c' Hl Hr j q Eq) as [_ [_ HL]]. specialize (HL (ex_intro _ s (conj Es X))).
  assert (In (KLineTo (as_kpoint (gp_of_point L q))) (elements l) -> False) as Hno.
  { unfold elements. intros [F|F]; [discriminate|]. apply in_app_or in F as [F|[F|[]]]; [|discriminate].
    apply in_map_iff in F as (? & ? & _). discriminate. }
  assert (forall e, In e (elements l) -> match e with KLineTo _ => False | _ => True end) as Hno2.
  { intros e. unfold elements. intros [<-|F]; [exact I|]. apply in_app_or in F as [F|[<-|[]]]; [|exact I].
    apply in_map_iff in F as (? & <- & _). exact I. }
  assert (In (LineTo (gp_of_point L q)) (map (op_at L c') (seq 1 (length c' - 1)))) as Hin.
  { apply in_map_iff. exists (S j). split; [unfold op_at; now rewrite Eq, HL|]. apply in_seq. lia. }
  match type of Hsame with Forall2 _ ?a _ => assert (In (KLineTo (as_kpoint (gp_of_point L q))) a) as Hin2 end.
  { cbn [map]. right. rewrite map_app. apply in_or_app. right. rewrite map_app. apply in_or_app. left.
    apply in_map_iff. eexists. split; [|exact Hin]. reflexivity. }
  clear - Hsame Hin2 Hno2. revert Hno2. induction Hsame as [|e f le lf Hef _ IH]; [inversion Hin2|]. intros Hno2.
  destruct Hin2 as [->|Hin2].
  - specialize (Hno2 f (or_introl eq_refl)). destruct f; cbn in Hef; try contradiction.
  - apply IH; [assumption|]. intros e' He'. apply Hno2. now right.
Qed.

Lemma back_all ls : Forall (closed_cubic L) ls -> Forall (fun l => bent (l_start l) (removelast (l_segs l))) ls ->
  exists els, outline_into_kurbo_vec (PD := PD) L (map contour_of ls) = Ok els /\
    Forall2 same_element els (concat (map elements ls)).
Proof.
  induction 1 as [|l ls Hl _ IH]; intros Hb.
  - eexists. split; [reflexivity|constructor].
  - inversion Hb as [|? ? Hb1 Hb2]; subst. destruct (IH Hb2) as (e2 & E2 & F2).
    destruct (back_closed l Hl Hb1) as (e1 & E1 & F1). exists (e1 ++ e2). cbn [map outline_into_kurbo_vec].
    rewrite E1, E2. split; [reflexivity|]. cbn [concat map]. now apply Forall2_app.
Qed.

(** * When reading a path panics *)
Fixpoint stuck (begun : bool) (path : list pathel) : bool :=
  match path with
  | [] => false
  | KMoveTo _ :: t => stuck true t
  | KClosePath :: t => if begun then stuck false t else true
  | _ :: t => stuck begun t
  end.

Lemma stuck_spec path : forall b, stuck b path = true <->
  (b = false /\ exists mid post, path = mid ++ KClosePath :: post /\ Forall neither_move_nor_close mid) \/
  (exists pre mid post, path = (pre ++ [KClosePath]) ++ mid ++ KClosePath :: post /\ Forall neither_move_nor_close mid).
Proof.
  induction path as [|e path IH]; intros b.
  - split; [discriminate|]. intros [(_ & [|] & ? & E & _)|([|] & ? & ? & E & _)]; discriminate.
  - assert (forall (P : Prop), (exists pre mid post, e :: path = (pre ++ [KClosePath]) ++ mid ++ KClosePath :: post /\ Forall neither_move_nor_close mid) <->
      (e = KClosePath /\ exists mid post, path = mid ++ KClosePath :: post /\ Forall neither_move_nor_close mid) \/
      (exists pre mid post, path = (pre ++ [KClosePath]) ++ mid ++ KClosePath :: post /\ Forall neither_move_nor_close mid)) as HX.
    { intros _. split.
      - intros ([|x pre] & mid & post & E & H); cbn in E; injection E as -> E; [left|right]; eauto 6.
      - intros [(-> & mid & post & -> & H)|(pre & mid & post & -> & H)].
        + exists [], mid, post. auto.
        + exists (e :: pre), mid, post. auto. }
    rewrite (HX True). clear HX.
    assert (forall (P : Prop), (exists mid post, e :: path = mid ++ KClosePath :: post /\ Forall neither_move_nor_close mid) <->
      e = KClosePath \/ (neither_move_nor_close e /\ exists mid post, path = mid ++ KClosePath :: post /\ Forall neither_move_nor_close mid)) as HY.
    { intros _. split.
      - intros ([|x mid] & post & E & H); cbn in E; injection E as -> E; [now left|right]. inversion H; subst. eauto.
      - intros [->|(Hn & mid & post & -> & H)].
        + exists [], path. auto.
        + exists (e :: mid), post. auto. }
    rewrite (HY True). clear HY.
    destruct e; cbn [stuck neither_move_nor_close].
    + rewrite IH. split.
      * intros [[? _]|H]; [discriminate|]. right. right. exact H.
      * intros [(_ & [?|[[] _]])|[[? _]|H]]; try discriminate. right. exact H.
    + rewrite IH. split.
      * intros [(-> & H)|H]; [left; split; [reflexivity|right; auto]|right; right; exact H].
      * intros [(-> & [?|[_ H]])|[[? _]|H]]; try discriminate; auto.
    + rewrite IH. split.
      * intros [(-> & H)|H]; [left; split; [reflexivity|right; auto]|right; right; exact H].
      * intros [(-> & [?|[_ H]])|[[? _]|H]]; try discriminate; auto.
    + rewrite IH. split.
      * intros [(-> & H)|H]; [left; split; [reflexivity|right; auto]|right; right; exact H].
      * intros [(-> & [?|[_ H]])|[[? _]|H]]; try discriminate; auto.
    + destruct b.
      * rewrite IH. split.
        -- intros [(_ & H)|H]; right; [left; auto|right; exact H].
        -- intros [(? & _)|[[_ H]|H]]; try discriminate; auto.
      * split; [intros _; left; auto|reflexivity].
Qed.

Lemma stray_stuck path : stray_close path <-> stuck false path = true.
Proof.
  rewrite stuck_spec. unfold stray_close. split.
  - intros (pre & mid & post & E & H & [->|(pre' & ->)]); [left|right]; eauto 8.
  - intros [(_ & mid & post & E & H)|(pre & mid & post & E & H)].
    + exists [], mid, post. auto.
    + exists (pre ++ [KClosePath]), mid, post. eauto.
Qed.

Definition quad_op (o : penop) : bool := match o with QuadTo _ _ => true | _ => false end.
Definition quad_el (e : pathel) : bool := match e with KQuadTo _ _ => true | _ => false end.
Definition no_close (o : penop) : bool := match o with Close => false | _ => true end.
Definition begun (kc : list penop) : bool := match kc with MoveTo _ :: _ => true | _ => false end.
Definition quads (st : list (list penop) * list penop) : bool := existsb (existsb quad_op) (flush st).
Definition closeless (st : list (list penop) * list penop) : bool := forallb (forallb no_close) (flush st).

Lemma flush_app f (st : list (list penop) * list penop) :
  existsb (existsb f) (flush st) = existsb (existsb f) (fst st) || existsb f (snd st).
Proof.
  destruct st as [ko kc]. unfold flush. cbn [fst snd]. destruct kc as [|o kc]; cbn [length Nat.ltb Nat.leb].
  - cbn. now rewrite orb_false_r.
  - rewrite existsb_app. cbn [existsb]. now rewrite orb_false_r.
Qed.
Lemma flush_all f (st : list (list penop) * list penop) :
  forallb (forallb f) (flush st) = forallb (forallb f) (fst st) && forallb f (snd st).
Proof.
  destruct st as [ko kc]. unfold flush. cbn [fst snd]. destruct kc as [|o kc]; cbn [length Nat.ltb Nat.leb].
  - cbn. now rewrite andb_true_r.
  - rewrite forallb_app. cbn [forallb]. now rewrite andb_true_r.
Qed.

Lemma split_runs path : forall ko kc, closeless (ko, kc) = true ->
  if stuck (begun kc) path then split_loop (ko, kc) (map (penop_of_pathel L) path) = Panic
  else exists st, split_loop (ko, kc) (map (penop_of_pathel L) path) = Ok st /\
         quads st = quads (ko, kc) || existsb quad_el path /\ closeless st = true.
Proof.
  induction path as [|e path IH]; intros ko kc Hcl.
  - cbn [stuck map split_loop existsb]. exists (ko, kc). now rewrite orb_false_r.
  - unfold closeless, quads in *. rewrite flush_all in Hcl. rewrite flush_app. cbn [fst snd] in Hcl |- *.
    apply andb_true_iff in Hcl as [C1 C2].
    assert (forall o, is_move_to o = false -> penop_len o <> 0 -> no_close o = true ->
      stuck (begun kc) path = stuck (begun (kc ++ [o])) path) as Hb.
    { intros o H1 _ _. destruct kc as [|x kc]; [|reflexivity]. destruct o; try discriminate; reflexivity. }
    assert (forall o, is_move_to o = false -> penop_len o <> 0 -> no_close o = true ->
      split_step (ko, kc) o = Ok (ko, kc ++ [o])) as Hs.
    { intros o H1 H2 _. unfold split_step. rewrite H1. destruct (Nat.ltb_spec 0 (penop_len o)); [reflexivity|lia]. }
    destruct e; cbn [stuck map penop_of_pathel split_loop existsb quad_el].
    + cbn [split_step is_move_to bind].
      specialize (IH (flush (ko, kc)) [MoveTo (gp_of_kpoint L p Move)]). cbn [begun] in IH.
      rewrite flush_all, flush_app in IH. cbn [fst snd] in IH. rewrite flush_all, flush_app in IH. cbn [fst snd forallb existsb no_close quad_op] in IH.
      rewrite C1, C2 in IH. specialize (IH eq_refl). rewrite !orb_false_r in IH. exact IH.
    + set (o := LineTo _) in *. rewrite (Hb o), (Hs o) by (try reflexivity; discriminate). cbn [bind].
      specialize (IH ko (kc ++ [o])). rewrite flush_all, flush_app in IH. cbn [fst snd] in IH.
      rewrite forallb_app, existsb_app in IH. cbn [forallb existsb no_close quad_op o] in IH.
      rewrite C1, C2 in IH. specialize (IH eq_refl). rewrite !orb_false_r in IH. exact IH.
    + set (o := QuadTo _ _) in *. rewrite (Hb o), (Hs o) by (try reflexivity; discriminate). cbn [bind].
      specialize (IH ko (kc ++ [o])). rewrite flush_all, flush_app in IH. cbn [fst snd] in IH.
      rewrite forallb_app, existsb_app in IH. cbn [forallb existsb no_close quad_op o] in IH.
      rewrite C1, C2 in IH. specialize (IH eq_refl). rewrite !orb_true_r in IH. cbn [orb] in *. rewrite !orb_true_r. exact IH.
    + set (o := CurveTo _ _ _) in *. rewrite (Hb o), (Hs o) by (try reflexivity; discriminate). cbn [bind].
      specialize (IH ko (kc ++ [o])). rewrite flush_all, flush_app in IH. cbn [fst snd] in IH.
      rewrite forallb_app, existsb_app in IH. cbn [forallb existsb no_close quad_op o] in IH.
      rewrite C1, C2 in IH. specialize (IH eq_refl). rewrite !orb_false_r in IH. exact IH.
    + destruct kc as [|[g| | | |] kc]; cbn [begun split_step is_move_to penop_len Nat.ltb Nat.leb bind]; try reflexivity.
      specialize (IH ko (CurveTo g g g :: kc)). cbn [begun] in IH. rewrite flush_all, flush_app in IH. cbn [fst snd] in IH.
      cbn [forallb existsb no_close quad_op orb andb] in C2, IH |- *. rewrite C1, C2 in IH. specialize (IH eq_refl). exact IH.
Qed.

Lemma outline_point_res el nx : no_close el = true ->
  if quad_op el then outline_point (PD := PD) el (penop_points el) nx = Panic
  else exists ps, outline_point (PD := PD) el (penop_points el) nx = Ok ps.
Proof.
  destruct el; cbn [no_close quad_op penop_points]; intros H; try discriminate; unfold outline_point; cbn [ptype_of_penop].
  - eauto.
  - destruct nx as [|a [|b [|c [|]]]]; eauto.
  - reflexivity.
  - eauto.
Qed.
Lemma walk_res first l : forallb no_close l = true ->
  if existsb quad_op l then walk first l = Panic else exists c, walk first l = Ok c.
Proof.
  induction l as [|el l IH]; cbn [forallb existsb walk]; [eauto|]. intros H. apply andb_true_iff in H as [H1 H2].
  pose proof (outline_point_res el (penop_points (hd first l)) H1) as Hp. destruct (quad_op el); cbn [orb].
  - now rewrite Hp.
  - destruct Hp as (ps & ->). cbn [bind]. specialize (IH H2). destruct (existsb quad_op l).
    + now rewrite IH.
    + destruct IH as (c & ->). cbn. eauto.
Qed.
Lemma pieces_res ks : forallb (forallb no_close) ks = true ->
  if existsb (existsb quad_op) ks then penops_to_outline (PD := PD) ks = Panic
  else exists o, penops_to_outline (PD := PD) ks = Ok o.
Proof.
  unfold penops_to_outline. induction ks as [|k ks IH]; cbn [forallb existsb mapM]; [eauto|]. intros H. apply andb_true_iff in H as [H1 H2].
  assert (if existsb quad_op k then penops_to_contour (PD := PD) k = Panic else exists c, penops_to_contour (PD := PD) k = Ok c) as Hk.
  { destruct k as [|f k]; [eexists; reflexivity|]. rewrite penops_to_contour_walk. pose proof (walk_res f (f :: k) H1) as Hw.
    destruct (existsb quad_op (f :: k)); [now rewrite Hw|]. destruct Hw as (c & ->). cbn. eauto. }
  destruct (existsb quad_op k); cbn [orb].
  - now rewrite Hk.
  - destruct Hk as (c & ->). cbn [bind]. specialize (IH H2). destruct (existsb (existsb quad_op) ks).
    + now rewrite IH.
    + destruct IH as (o & ->). cbn. eauto.
Qed.

Lemma from_kurbo_res path :
  ((1 < length path /\ (stray_close path \/ Exists is_quad path)) /\ outline_from_kurbo (PD := PD) L path = Panic) \/
  (~ (1 < length path /\ (stray_close path \/ Exists is_quad path)) /\ exists o, outline_from_kurbo (PD := PD) L path = Ok o).
Proof.
  unfold outline_from_kurbo, split_pen_operations. rewrite map_length.
  destruct (Nat.leb_spec (length path) 1) as [H|H].
  - right. split; [lia|]. eexists. reflexivity.
  - assert (Exists is_quad path <-> existsb quad_el path = true) as Hq.
    { rewrite existsb_exists, Exists_exists. split; intros (e & Hi & He); exists e; split; auto; destruct e; cbn in *; auto; discriminate. }
    pose proof (split_runs path [] [] eq_refl) as Hr. cbn [begun] in Hr. rewrite stray_stuck.
    destruct (stuck false path) eqn:Es.
    + left. rewrite Hr. auto.
    + destruct Hr as ([ko kc] & -> & H1 & H2). cbn [bind].
      change (if 0 <? length kc then ko ++ [kc] else ko) with (flush (ko, kc)).
      unfold closeless in H2. pose proof (pieces_res _ H2) as Hp. unfold quads in H1. rewrite H1 in Hp. cbn [flush snd fst length Nat.ltb Nat.leb existsb orb] in Hp.
      destruct (existsb quad_el path) eqn:Eq.
      * left. split; [|assumption]. split; [assumption|]. right. now apply Hq.
      * right. split; [|assumption]. intros (_ & [?|X]); [discriminate|]. apply Hq in X. discriminate.
Qed.
End K.

(** Degree elevation. *)
Lemma elevation p0 p1 p2 a b c d t :
  quad_to_cubic_coords Qplus Qminus (Qmult (2 / 3)) p0 p1 p2 = (a, b, c, d) ->
  (cubic_at a b c d t == quad_at p0 p1 p2 t)%Q.
Proof. unfold quad_to_cubic_coords. intros E. injection E as <- <- <- <-. unfold cubic_at, quad_at. field. Qed.
