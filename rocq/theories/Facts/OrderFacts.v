(** The order of floats, and rectangles around points. *)
Require Import Coq.Lists.List Coq.ZArith.ZArith Coq.Bool.Bool Coq.Floats.SpecFloat Lia.
Require Import Verif.Model.Base Verif.Model.Float Verif.Model.Point Verif.Model.Parts Verif.Model.Component Verif.Spec.ComponentSpec.
Import ListNotations.
Local Open Scope Z_scope.

(** Lexicographic comparison of a key. *)
Definition okey (f : spec_float) : Z * Z * Z :=
  match f with
  | S754_infinity true => (-2, 0, 0)
  | S754_finite true m e => (-1, - e, - Zpos m)
  | S754_zero _ => (0, 0, 0)
  | S754_finite false m e => (1, e, Zpos m)
  | S754_infinity false => (2, 0, 0)
  | S754_nan => (3, 0, 0)
  end.
Definition klt (a b : Z * Z * Z) : Prop :=
  let '(a1, a2, a3) := a in let '(b1, b2, b3) := b in
  a1 < b1 \/ a1 = b1 /\ (a2 < b2 \/ a2 = b2 /\ a3 < b3).
Lemma flt_key a b : is_nan a = false -> is_nan b = false -> (flt a b = true <-> klt (okey a) (okey b)).
Proof.
  unfold flt, SFltb. destruct a as [s|s| |s m e], b as [s'|s'| |s' m' e']; try discriminate; intros _ _;
    try (destruct s; destruct s'; cbn; (split; [intros; try discriminate; lia|intros; try reflexivity; lia])).
  all: try (destruct s; cbn; (split; [intros; try discriminate; lia|intros; try reflexivity; lia])).
  all: try (destruct s'; cbn; (split; [intros; try discriminate; lia|intros; try reflexivity; lia])).
  destruct s, s'; cbn -[Pos.compare_cont]; try (split; [intros; try discriminate; lia|intros; try reflexivity; lia]).
  - change (Pos.compare_cont Eq m m') with (Pos.compare m m'). destruct (Z.compare_spec e e'), (Pos.compare_spec m m'); cbn; (split; [intros; try discriminate; lia|intros; try reflexivity; lia]).
  - change (Pos.compare_cont Eq m m') with (Pos.compare m m'). destruct (Z.compare_spec e e'), (Pos.compare_spec m m'); cbn; (split; [intros; try discriminate; lia|intros; try reflexivity; lia]).
Qed.
Lemma fle_flt a b : is_nan a = false -> is_nan b = false -> fle a b = negb (flt b a).
Proof.
  unfold flt, fle, SFltb, SFleb. destruct a as [s|s| |s m e], b as [s'|s'| |s' m' e']; try discriminate; intros _ _; try reflexivity;
    try (destruct s; reflexivity); try (destruct s'; reflexivity); try (destruct s, s'; reflexivity).
  destruct s, s'; cbn; try reflexivity; rewrite (Z.compare_antisym e' e); fold (Pos.compare m m'); fold (Pos.compare m' m);
    rewrite (Pos.compare_antisym m' m); destruct (e' ?= e), (Pos.compare m' m); reflexivity.
Qed.
Lemma fle_key a b : is_nan a = false -> is_nan b = false -> (fle a b = true <-> ~ klt (okey b) (okey a)).
Proof.
  intros Ha Hb. rewrite fle_flt by assumption. rewrite <- flt_key by assumption. destruct (flt b a); cbn; split; intros; congruence.
Qed.
Lemma fle_refl a : is_nan a = false -> fle a a = true.
Proof. intros H. apply fle_key; [assumption..|]. destruct (okey a) as [[? ?] ?]. cbn. lia. Qed.
Lemma fle_trans a b c : is_nan a = false -> is_nan b = false -> is_nan c = false -> fle a b = true -> fle b c = true -> fle a c = true.
Proof.
  intros Ha Hb Hc. rewrite !fle_key by assumption. destruct (okey a) as [[? ?] ?], (okey b) as [[? ?] ?], (okey c) as [[? ?] ?]. cbn. lia.
Qed.

Section Rect.
Context {PD PL : Type}.
Implicit Types (c : list (point PD)) (b : bounds).

Definition rect_of b : comp_rect := let '(minx, miny, maxx, maxy) := b in mkRect minx miny maxx maxy [].
Definition extend c b := fold_left (fun b p => update_bounds false b p) c b.

Lemma tight_step b (ps : list (point PD)) p : (forall q, In q ps -> numeric q) -> numeric p ->
  tight (rect_of b) ps -> tight (rect_of (update_bounds false b p)) (ps ++ [p]).
Proof.
  destruct b as [[[x0 y0] x1] y1]. unfold tight, numeric. cbn [update_bounds rect_of r_minx r_maxx r_miny r_maxy]. rewrite !orb_false_r.
  intros Hn [Hx Hy] (H & (q0 & I0 & E0) & (q1 & I1 & E1) & (q2 & I2 & E2) & (q3 & I3 & E3)).
  assert (is_nan x0 = false) as N0 by (rewrite <- E0; apply Hn; assumption).
  assert (is_nan x1 = false) as N1 by (rewrite <- E1; apply Hn; assumption).
  assert (is_nan y0 = false) as N2 by (rewrite <- E2; apply Hn; assumption).
  assert (is_nan y1 = false) as N3 by (rewrite <- E3; apply Hn; assumption).
  assert (forall v lo q, is_nan v = false -> is_nan lo = false -> is_nan q = false -> fle lo q = true -> fle (if flt v lo then v else lo) q = true) as Lo.
  { intros v lo q Nv Nl Nq Hle. destruct (flt v lo) eqn:E; [|assumption]. apply (fle_trans v lo q); try assumption.
    rewrite fle_flt by assumption. apply negb_true_iff. apply flt_key in E; try assumption. destruct (flt lo v) eqn:E'; [|reflexivity].
    apply flt_key in E'; try assumption. destruct (okey lo) as [[? ?] ?], (okey v) as [[? ?] ?]. cbn in *. lia. }
  assert (forall v hi q, is_nan v = false -> is_nan hi = false -> is_nan q = false -> fle q hi = true -> fle q (if flt hi v then v else hi) = true) as Hi.
  { intros v hi q Nv Nl Nq Hle. destruct (flt hi v) eqn:E; [|assumption]. apply (fle_trans q hi v); try assumption.
    rewrite fle_flt by assumption. apply negb_true_iff. apply flt_key in E; try assumption. destruct (flt v hi) eqn:E'; [|reflexivity].
    apply flt_key in E'; try assumption. destruct (okey hi) as [[? ?] ?], (okey v) as [[? ?] ?]. cbn in *. lia. }
  assert (forall v lo, is_nan v = false -> is_nan lo = false -> fle (if flt v lo then v else lo) v = true) as Lo'.
  { intros v lo Nv Nl. destruct (flt v lo) eqn:E; [now apply fle_refl|]. rewrite fle_flt by assumption. now rewrite E. }
  assert (forall v hi, is_nan v = false -> is_nan hi = false -> fle v (if flt hi v then v else hi) = true) as Hi'.
  { intros v lo Nv Nl. destruct (flt lo v) eqn:E; [now apply fle_refl|]. rewrite fle_flt by assumption. now rewrite E. }
  split.
  - intros q Hq. apply in_app_iff in Hq as [Hq|[<-|[]]].
    + destruct (H q Hq) as (A & B & C & D), (Hn q Hq) as (U & V). auto 10.
    + auto 10.
  - repeat split.
    + destruct (flt (px p) x0); [exists p|exists q0]; (split; [apply in_app_iff; cbn; auto|auto]).
    + destruct (flt x1 (px p)); [exists p|exists q1]; (split; [apply in_app_iff; cbn; auto|auto]).
    + destruct (flt (py p) y0); [exists p|exists q2]; (split; [apply in_app_iff; cbn; auto|auto]).
    + destruct (flt y1 (py p)); [exists p|exists q3]; (split; [apply in_app_iff; cbn; auto|auto]).
Qed.
Lemma tight_extend c : forall b ps, (forall q, In q (ps ++ c) -> numeric q) -> tight (rect_of b) ps -> tight (rect_of (extend c b)) (ps ++ c).
Proof.
  induction c as [|p c IH]; intros b ps Hn H; cbn [extend fold_left]; [now rewrite app_nil_r|].
  replace (ps ++ p :: c) with ((ps ++ [p]) ++ c) in * by now rewrite <- app_assoc. apply IH; [assumption|].
  apply tight_step; [| |assumption].
  - intros q Hq. apply Hn. apply in_app_iff. left. apply in_app_iff. now left.
  - apply Hn. apply in_app_iff. left. apply in_app_iff. cbn. auto.
Qed.

Lemma apply_points_later ms i j : (i, j) <> (0, 0)%nat -> forall c k b, (j <= k)%nat -> snd (apply_points ms i k b c) = extend c b.
Proof.
  intros Hij. induction c as [|p c IH]; intros k b Hk; [reflexivity|]. cbn [apply_points extend fold_left].
  assert (((i =? 0)%nat && (k =? 0)%nat) = false) as ->.
  { destruct (Nat.eqb_spec i 0), (Nat.eqb_spec k 0); try reflexivity. subst. exfalso. apply Hij. f_equal. lia. }
  specialize (IH (S k) (update_bounds false b p) ltac:(lia)). destruct (apply_points ms i (S k) _ c). assumption.
Qed.
Lemma apply_contours_later ms : forall (o : list (list (point PD))) i b, (0 < i)%nat -> snd (apply_contours ms i b o) = extend (concat o) b.
Proof.
  induction o as [|c o IH]; intros i b Hi; [reflexivity|]. cbn [apply_contours concat].
  pose proof (apply_points_later ms i 0 ltac:(intros E; injection E; lia) c 0 b (le_n _)) as E. destruct (apply_points ms i 0 b c) as [c' b']. cbn [snd] in E. subst b'.
  specialize (IH (S i) (extend c b) ltac:(lia)). destruct (apply_contours ms (S i) _ o) as [o' b'']. cbn [snd] in *. subst. unfold extend. now rewrite fold_left_app.
Qed.
Lemma apply_contours_bounds ms b p c (o : list (list (point PD))) :
  snd (apply_contours ms 0 b ((p :: c) :: o)) = extend (c ++ concat o) (px p, py p, px p, py p).
Proof.
  cbn [apply_contours apply_points Nat.eqb andb].
  assert (update_bounds true b p = (px p, py p, px p, py p)) as ->.
  { destruct b as [[[? ?] ?] ?]. unfold update_bounds. now rewrite !orb_true_r. }
  pose proof (apply_points_later ms 0 1 ltac:(intros E; discriminate) c 1 (px p, py p, px p, py p) (le_n _)) as E.
  destruct (apply_points ms 0 1 (px p, py p, px p, py p) c) as [c' b']. cbn [snd] in E. subst b'.
  pose proof (apply_contours_later ms o 1 (extend c (px p, py p, px p, py p)) ltac:(lia)) as E.
  destruct (apply_contours ms 1 _ o) as [o' b'']. cbn [snd] in *. subst. unfold extend. now rewrite fold_left_app.
Qed.

(** What one component does to the bounds. *)
Definition own_points (k : component PD PL) : list (point PD) := concat (own_contours k).
Lemma component_bounds (k : component PD PL) above b final : (forall x, In x (own_contours k) -> x <> []) ->
  (own_contours k = [] -> snd (apply_component_rect k above b final) = b) /\
  (own_contours k <> [] -> (forall p, In p (own_points k) -> numeric p) ->
   tight (rect_of (snd (apply_component_rect k above b final))) (own_points k)).
Proof.
  unfold apply_component_rect, own_points, own_contours. destruct (g_outline (cp_glif k)) as [o|]; [|intros _; split; [reflexivity|congruence]].
  intros Hne. split.
  - intros ->. reflexivity.
  - destruct o as [|[|p c] o]; [intros X; now destruct X|exfalso; apply (Hne []); [now left|reflexivity]|]. intros _ Hn.
    pose proof (apply_contours_bounds (cp_matrix k :: above) b p c o) as E. destruct (apply_contours _ 0 b _) as [o' b']. cbn [snd] in *. subst b'.
    cbn [concat] in *. change ((p :: c) ++ concat o) with ([p] ++ (c ++ concat o)) in *. apply tight_extend; [assumption|].
    destruct (Hn p ltac:(now left)) as [Nx Ny]. unfold tight, rect_of. cbn [r_minx r_maxx r_miny r_maxy].
    split; [|repeat split; exists p; (split; [now left|reflexivity])].
    intros q [<-|[]]. repeat split; apply fle_refl; assumption.
Qed.

(** The bounds after a sequence of components. *)
Definition has_contours (k : component PD PL) : bool := match own_contours k with [] => false | _ => true end.
Definition bounds_after (ks : list (component PD PL)) b0 b : Prop :=
  match rev (filter has_contours ks) with
  | [] => b = b0
  | k :: _ => (forall p, In p (own_points k) -> numeric p) -> tight (rect_of b) (own_points k)
  end.
Lemma bounds_snoc ks k b0 b above final : (forall x, In x (own_contours k) -> x <> []) -> bounds_after ks b0 b ->
  bounds_after (ks ++ [k]) b0 (snd (apply_component_rect k above b final)).
Proof.
  intros Hne H. destruct (component_bounds k above b final Hne) as [H1 H2]. unfold bounds_after in *. rewrite filter_app, rev_app_distr. cbn [filter].
  unfold has_contours at 1. destruct (own_contours k) as [|x l] eqn:E.
  - cbn [rev app]. rewrite H1 by reflexivity. assumption.
  - cbn [rev app]. apply H2. discriminate.
Qed.
Lemma bounds_back m : forall (ts : list (ctree PD PL)) ks b0 b final, (forall t x, In t ts -> In x (own_contours (cdata t)) -> x <> []) -> bounds_after ks b0 b ->
  bounds_after (ks ++ map cdata ts) b0 (snd (apply_back m ts b final)).
Proof.
  induction ts as [|t ts IH]; intros ks b0 b final Hne H; cbn [apply_back map]; [now rewrite app_nil_r|].
  pose proof (bounds_snoc ks (cdata t) b0 b [m] final ltac:(intros x; apply Hne; now left) H) as H'.
  destruct (apply_component_rect (cdata t) [m] b final) as [f b']. cbn [snd] in H'.
  replace (ks ++ cdata t :: map cdata ts) with ((ks ++ [cdata t]) ++ map cdata ts) by now rewrite <- app_assoc.
  apply IH; [|assumption]. intros t' x Ht'. apply Hne. now right.
Qed.
Lemma tight_name b r (ps : list (point PD)) :
  r_minx r = r_minx (rect_of b) -> r_miny r = r_miny (rect_of b) -> r_maxx r = r_maxx (rect_of b) -> r_maxy r = r_maxy (rect_of b) ->
  tight (rect_of b) ps -> tight r ps.
Proof. unfold tight. intros -> -> -> ->. auto. Qed.
Lemma flatten_tree_rect (t : ctree PD PL) final : (forall x, In x (own_contours (cdata t)) -> x <> []) ->
  (forall t' x, In t' (cchildren t) -> In x (own_contours (cdata t')) -> x <> []) ->
  let r := snd (flatten_tree t final) in
  r_name r = g_name (cp_glif (cdata t)) /\
  match rev (placed t) with
  | [] => r_minx r = pos_zero /\ r_miny r = pos_zero /\ r_maxx r = pos_zero /\ r_maxy r = pos_zero
  | k :: _ => (forall p, In p (concat (own_contours k)) -> numeric p) -> tight r (concat (own_contours k))
  end.
Proof.
  intros H0 H1. unfold flatten_tree.
  set (z := (pos_zero, pos_zero, pos_zero, pos_zero)).
  pose proof (bounds_snoc [] (cdata t) z z [] final H0 eq_refl) as B. destruct (apply_component_rect (cdata t) [] z final) as [f b]. cbn [snd] in B.
  assert (forall t' x, In t' (rev (cchildren t)) -> In x (own_contours (cdata t')) -> x <> []) as H1' by (intros t' x Ht'; apply H1; now apply in_rev).
  pose proof (bounds_back (cp_matrix (cdata t)) (rev (cchildren t)) _ _ _ f H1' B) as B'. destruct (apply_back _ _ b f) as [f' b']. cbn [snd] in B'.
  unfold bounds_after in B'. unfold placed. cbn [app] in B'. fold has_contours in B'. change (fun c : component PD PL => match own_contours c with [] => false | _ :: _ => true end) with has_contours.
  destruct b' as [[[x0 y0] x1] y1]. cbn [snd]. split; [reflexivity|].
  destruct (rev (filter has_contours (cdata t :: map cdata (rev (cchildren t))))) as [|k l].
  - unfold z in B'. injection B' as -> -> -> ->. auto.
  - intros Hn. apply B' in Hn. eapply tight_name; [..|exact Hn]; reflexivity.
Qed.
End Rect.
