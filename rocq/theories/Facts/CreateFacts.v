(** Reading contours from the points of a file. *)
Require Import Coq.Lists.List Coq.Arith.Arith Coq.Bool.Bool Coq.micromega.Lia.
Require Import Verif.Model.Base Verif.Model.Text Verif.Model.Float Verif.Model.Num Verif.Model.Point
  Verif.Model.Contour Verif.Model.Create Verif.Spec.ContourSpec Verif.Spec.OutlineSpec Verif.Facts.ContourFacts.
Import ListNotations.

Lemma map_last_snoc {A} (f : A -> A) l x : map_last f (l ++ [x]) = l ++ [f x].
Proof.
  induction l as [|y l IH]; [reflexivity|]. cbn [app]. destruct (l ++ [x]) eqn:E.
  - destruct l; discriminate.
  - rewrite <- E in *. cbn [map_last]. rewrite E at 1. now rewrite IH.
Qed.
Lemma offcurve_is g : is_off (gptype g) = offcurve g.
Proof. unfold is_off, offcurve. now destruct (gptype g). Qed.

Section Cubic.
Context {PD : Type}.
Implicit Types p q : point PD.

Definition out_of (offs : list glifpoint) : handle := match offs with h :: _ => placed h | [] => Colocated end.
Definition in_of (offs : list glifpoint) : handle := match offs with _ :: h :: _ => placed h | _ => Colocated end.
Definition made (g : glifpoint) (offs : list glifpoint) : point PD :=
  mkPoint (f32_of_iof (gx g)) (f32_of_iof (gy g)) (out_of offs) (in_of offs) (gname g) (gptype g) (gsmooth g) None.

Fixpoint build p (offs l : list glifpoint) : list (point PD) :=
  match l with
  | [] => [p]
  | h :: t => if offcurve h then build p (offs ++ [h]) t else with_a p (out_of offs) :: build (made h offs) [] t
  end.
Fixpoint left_over (offs l : list glifpoint) : list glifpoint :=
  match l with
  | [] => offs
  | h :: t => if offcurve h then left_over (offs ++ [h]) t else left_over [] t
  end.

Definition in_form (h : glifpoint) : Prop := gptype h = OffCurve \/ gptype h = Line \/ gptype h = Curve.

Lemma short_tail g t : short_runs (g :: t) -> short_runs t.
Proof. intros H l a b c r E. apply (H (g :: l) a b c r). now rewrite E. Qed.

Lemma short_app offs t : Forall (fun h => offcurve h = true) offs -> short_runs (offs ++ t) -> length offs <= 2.
Proof.
  intros Ho Hs. destruct offs as [|a [|b [|c offs]]]; cbn; try lia. exfalso.
  apply (Hs [] a b c (offs ++ t) eq_refl). inversion_clear Ho. inversion_clear H0. inversion_clear H2. auto.
Qed.
Lemma short_drop l t : short_runs (l ++ t) -> short_runs t.
Proof. induction l as [|x l IH]; [auto|]. intros H. apply IH. eapply short_tail. exact H. Qed.

Lemma cubic_on st cs p stack h : st = (cs ++ [p], stack) -> length stack <= 2 -> gptype h = Line \/ gptype h = Curve ->
  cubic_step (PD:=PD) st h = Ok ((cs ++ [with_a p (out_of stack)]) ++ [made h stack], []).
Proof.
  intros -> Hs Ht. unfold cubic_step.
  assert (pop stack = (hd_error stack, tl stack)) as -> by (destruct stack; reflexivity).
  assert (pop (tl stack) = (hd_error (tl stack), tl (tl stack))) as E2 by (destruct (tl stack); reflexivity).
  assert (tl (tl stack) = []) as E3 by (destruct stack as [|? [|? [|? ?]]]; cbn in *; try reflexivity; lia).
  destruct Ht as [E | E]; rewrite E, E2, E3, map_last_snoc; unfold made; rewrite E;
  destruct stack as [|? [|? ?]]; reflexivity.
Qed.

Lemma cubic_loop_build : forall l cs p stack,
  Forall in_form l -> Forall (fun h => offcurve h = true) stack -> short_runs (stack ++ l) ->
  cubic_loop (cs ++ [p], stack) l = Ok (cs ++ build p stack l, left_over stack l).
Proof.
  induction l as [|h t IH]; intros cs p stack Hf Ho Hs; [reflexivity|].
  inversion_clear Hf as [|? ? Hh Ht]. cbn [cubic_loop build left_over].
  destruct (offcurve h) eqn:Eh.
  - assert (gptype h = OffCurve) as Eg by (unfold offcurve in Eh; destruct (gptype h); congruence).
    unfold cubic_step. rewrite Eg. cbn [bind]. apply IH; [assumption| |].
    + apply Forall_app. auto.
    + now rewrite <- app_assoc.
  - assert (gptype h = Line \/ gptype h = Curve) as Eg.
    { destruct Hh as [E|E]; [|exact E]. unfold offcurve in Eh. rewrite E in Eh. discriminate. }
    rewrite (cubic_on _ cs p stack h eq_refl) by (auto; apply (short_app _ (h :: t)); assumption).
    cbn [bind]. rewrite IH; [|assumption|constructor|].
    + now rewrite <- app_assoc.
    + apply (short_drop (stack ++ [h])). now rewrite <- app_assoc.
Qed.

Lemma build_last : forall l p offs, exists cs q, build p offs l = cs ++ [q].
Proof.
  induction l as [|h t IH]; intros p offs.
  - exists [], p. reflexivity.
  - cbn [build]. destruct (offcurve h); [apply IH|].
    destruct (IH (made h offs) []) as (cs & q & ->). exists (with_a p (out_of offs) :: cs), q. reflexivity.
Qed.

(** The finished list: the last point gets the outgoing handle. *)
Fixpoint built p (offs l : list glifpoint) : list (point PD) :=
  match l with
  | [] => [with_a p (out_of offs)]
  | h :: t => if offcurve h then built p (offs ++ [h]) t else with_a p (out_of offs) :: built (made h offs) [] t
  end.

Lemma build_built : forall l p offs,
  map_last (fun q => with_a q (out_of (left_over offs l))) (build p offs l) = built p offs l.
Proof.
  induction l as [|h t IH]; intros p offs; [reflexivity|]. cbn [build built left_over].
  destruct (offcurve h); [apply IH|]. rewrite <- IH.
  destruct (build (made h offs) [] t) eqn:E; [|reflexivity].
  destruct (build_last t (made h offs) []) as (cs & q & E'). rewrite E in E'. now destruct cs.
Qed.

Lemma built_head : forall l p offs, exists h t, built p offs l = with_a p h :: t /\
  (t = [] <-> oncurves l = []).
Proof.
  induction l as [|x l IH]; intros p offs; cbn [built oncurves filter].
  - exists (out_of offs), []. split; [reflexivity|tauto].
  - destruct (offcurve x); cbn [negb]; [apply IH|]. do 2 eexists. split; [reflexivity|].
    destruct (IH (made x offs) []) as (h & t & -> & _). split; discriminate.
Qed.

Lemma built_shown : forall l p offs, map shown (built p offs l) = shown p :: map listed (oncurves l).
Proof.
  induction l as [|h t IH]; intros p offs; [reflexivity|]. cbn [built oncurves filter].
  destruct (offcurve h); cbn [negb]; [apply IH|]. cbn [map]. rewrite IH. reflexivity.
Qed.
Lemma built_data : forall l p offs, pdata p = None -> Forall (fun q => pdata q = None) (built p offs l).
Proof.
  induction l as [|h t IH]; intros p offs Hp; cbn [built]; [constructor; [exact Hp|constructor]|].
  destruct (offcurve h); [now apply IH|]. constructor; [exact Hp|]. now apply IH.
Qed.

(** Replacing parts of the first point that its outgoing segments do not show. *)
Lemma segs_from_start p q l : px p = px q -> py p = py q -> pa p = pa q -> segs_from p l = segs_from q l.
Proof. intros Hx Hy Ha. destruct l; [reflexivity|]. cbn. unfold seg_between. now rewrite Hx, Hy, Ha. Qed.

Lemma built_segments : forall l g p offs, (px p, py p) = position g ->
  exists p0 t, built p offs l = p0 :: t /\ segs_from p0 t = walk g offs l /\
  forall q g', (px q, py q) = position g' -> pptype q = gptype g' -> offcurve g' = false ->
    pb q = in_of (left_over offs l) -> segs_from p0 (t ++ [q]) = walk g offs (l ++ [g']).
Proof.
  induction l as [|h t IH]; intros g p offs Hp.
  - exists (with_a p (out_of offs)), []. split; [reflexivity|]. split; [reflexivity|].
    intros q g' Hq Hty Hoff Hb. cbn [app walk left_over] in *. rewrite Hoff. cbn [segs_from].
    unfold seg_between, listed_segment. cbn [with_a px py pa]. rewrite Hp, Hq, Hty, Hb. reflexivity.
  - cbn [built walk app left_over]. destruct (offcurve h) eqn:Eh; [apply IH; assumption|].
    destruct (IH h (made h offs) [] eq_refl) as (p1 & t1 & E1 & S1 & S2).
    assert (px p1 = f32_of_iof (gx h) /\ py p1 = f32_of_iof (gy h) /\ pb p1 = in_of offs /\ pptype p1 = gptype h) as (Hx & Hy & Hb & Ht).
    { destruct (built_head t (made h offs) []) as (a & t' & E' & _). rewrite E1 in E'. injection E' as -> _. auto. }
    exists (with_a p (out_of offs)), (built (made h offs) [] t). rewrite E1. split; [reflexivity|].
    cbn [segs_from app]. unfold seg_between, listed_segment. cbn [with_a px py pa].
    rewrite Hp, Hx, Hy, Hb, Ht. split; [now rewrite <- S1|].
    intros q g' Hq Hty Hoff Hbq. now rewrite <- (S2 q g' Hq Hty Hoff Hbq).
Qed.

(** The whole contour: the points, then the segments. *)
Lemma cubic_contour_built g t :
  (gptype g = Move \/ gptype g = Line \/ gptype g = Curve) -> Forall in_form t -> short_runs (g :: t) ->
  cubic_contour (PD:=PD) (g :: t) =
  Ok (let c := built (made g []) [] t in
      if ptype_eqb (gptype g) Move then match c with [_] => [] | _ => c end
      else map_first (fun p => with_b p (in_of (left_over [] t))) c).
Proof.
  intros Hg Ht Hs. unfold cubic_contour. cbn [cubic_loop].
  assert (cubic_step (PD:=PD) ([], []) g = Ok ([made g []], [])) as ->.
  { unfold cubic_step, made. destruct Hg as [E|[E|E]]; rewrite E; reflexivity. }
  cbn [bind]. change [made g []] with ([] ++ [made g []]). rewrite (cubic_loop_build t [] (made g []) []); [|assumption|constructor|eapply short_tail; exact Hs].
  cbn [bind app]. set (lo := left_over [] t).
  assert (pop lo = (hd_error lo, tl lo)) as -> by (destruct lo; reflexivity).
  assert (pop (tl lo) = (hd_error (tl lo), tl (tl lo))) as -> by (destruct (tl lo); reflexivity).
  assert (handle_of_gp (hd_error lo) = out_of lo) as -> by (destruct lo; reflexivity).
  assert (handle_of_gp (hd_error (tl lo)) = in_of lo) as -> by (destruct lo as [|? [|? ?]]; reflexivity).
  unfold lo. rewrite build_built.
  destruct (built_head t (made g []) []) as (h & t' & -> & _).
  cbn [pptype with_a made map_first]. destruct (ptype_eqb (gptype g) Move) eqn:E; cbn [negb].
  - destruct t'; cbn [pptype with_a made]; [now rewrite E|reflexivity].
  - destruct t'; cbn [pptype with_a with_b made]; [now rewrite E|reflexivity].
Qed.

Lemma on_not_off g : gptype g = Move \/ gptype g = Line \/ gptype g = Curve -> offcurve g = false.
Proof. unfold offcurve. intros [-> |[-> | ->]]; reflexivity. Qed.

Lemma read_cubic L gc : cubic_form gc ->
  match gc with
  | g :: t => gptype g = Move -> oncurves t <> []
  | [] => True
  end ->
  exists c, contour_of_glif (PD:=PD) L gc = Ok c /\
    map shown c = map listed (oncurves gc) /\ Forall (fun p => pdata p = None) c /\
    match gc with
    | g :: _ => if ptype_eqb (gptype g) Move
                then open_segments c = open_listed gc /\ option_map pb (hd_error c) = Some Colocated
                else closed_segments c = closed_listed gc
    | [] => False
    end.
Proof.
  intros (g & t & -> & Hg & Ht & Hs) Hm.
  assert (contour_of_glif (PD:=PD) L (g :: t) = cubic_contour (g :: t)) as ->.
  { unfold contour_of_glif. destruct Hg as [-> |[-> | ->]]; reflexivity. }
  rewrite (cubic_contour_built g t Hg Ht Hs).
  assert (oncurves (g :: t) = g :: oncurves t) as Eon.
  { cbn [oncurves filter]. now rewrite (on_not_off g Hg). }
  destruct (built_segments t g (made g []) [] eq_refl) as (p0 & t0 & E & S1 & S2).
  pose proof (built_shown t (made g []) []) as Hsh. pose proof (built_data t (made g []) [] eq_refl) as Hd.
  destruct (built_head t (made g []) []) as (h & t' & E' & Htl). rewrite E in E'. injection E' as Ep0 <-.
  rewrite E in *. destruct (ptype_eqb_spec (gptype g) Move) as [Em|Em].
  - assert (t0 <> []) as Hne by (intros X; apply (Hm Em), Htl, X).
    exists (p0 :: t0). split; [destruct t0; [congruence|reflexivity]|].
    split; [rewrite Eon; exact Hsh|]. split; [assumption|]. split; [exact S1|]. rewrite Ep0. reflexivity.
  - cbn [map_first]. set (p1 := with_b p0 _). exists (p1 :: t0). split; [reflexivity|].
    split; [rewrite Eon; exact Hsh|]. split.
    { inversion_clear Hd. constructor; assumption. }
    unfold closed_segments, closed_listed.
    rewrite (segs_from_start p1 p0) by reflexivity. apply S2.
    + unfold p1. rewrite Ep0. reflexivity.
    + unfold p1. rewrite Ep0. reflexivity.
    + now apply on_not_off.
    + reflexivity.
Qed.

(** ** Panics and lost contours *)

Lemma cubic_loop_panic : forall l st,
  cubic_loop (PD:=PD) st l = Panic <-> exists g, In g l /\ gptype g = QCurve.
Proof.
  induction l as [|g l IH]; intros [c s].
  - cbn. split; [discriminate|]. intros (g & [] & _).
  - cbn [cubic_loop]. destruct (cubic_step (c, s) g) as [st'|e|] eqn:E; cbn [bind].
    + rewrite IH. split; [intros (x & Hx & Hq); exists x; split; [now right|assumption]|].
      intros (x & [<-|Hx] & Hq); [|eauto]. unfold cubic_step in E. rewrite Hq in E. discriminate.
    + exfalso. unfold cubic_step in E. destruct (gptype g); try discriminate; destruct (pop s) as [? s1], (pop s1); discriminate.
    + split; [|reflexivity]. intros _. exists g. split; [now left|]. unfold cubic_step in E.
      destruct (gptype g); try discriminate; try reflexivity; destruct (pop s) as [? s1], (pop s1); discriminate.
Qed.
Lemma cubic_loop_ok : forall l st e, cubic_loop (PD:=PD) st l <> Err e.
Proof.
  induction l as [|g l IH]; intros [c s] e; cbn [cubic_loop]; [discriminate|].
  destruct (cubic_step (c, s) g) as [st'|e'|] eqn:E; cbn [bind]; [apply IH| |discriminate].
  exfalso. unfold cubic_step in E. destruct (gptype g); try discriminate; destruct (pop s) as [? s1], (pop s1); discriminate.
Qed.

Lemma finish_ok (c : list (point PD)) : exists r,
  match c with [p] => if ptype_eqb (pptype p) Move then Ok [] else Ok c | _ => Ok c end = Ok r.
Proof. destruct c as [|p [|q c]]; [eauto| |eauto]. destruct (ptype_eqb (pptype p) Move); eauto. Qed.
Lemma cubic_contour_panic l : cubic_contour (PD:=PD) l = Panic <-> exists g, In g l /\ gptype g = QCurve.
Proof.
  unfold cubic_contour. rewrite <- (cubic_loop_panic l ([], [])).
  destruct (cubic_loop ([], []) l) as [[c s]|e|]; cbn [bind]; [|split; discriminate|split; reflexivity].
  destruct (pop s) as [h1 s1], (pop s1) as [h2 s2].
  edestruct finish_ok as [r ->]. split; discriminate.
Qed.
Lemma cubic_contour_no_err l e : cubic_contour (PD:=PD) l <> Err e.
Proof.
  unfold cubic_contour. pose proof (cubic_loop_ok l ([], [])) as H.
  destruct (cubic_loop ([], []) l) as [[c s]|e'|]; cbn [bind]; [|exact (fun X => H e' eq_refl)|discriminate].
  destruct (pop s) as [h1 s1], (pop s1) as [h2 s2].
  edestruct finish_ok as [r ->]. discriminate.
Qed.

Definition on_type (g : glifpoint) : bool := match gptype g with Line | Move | Curve => true | _ => false end.

Lemma map_last_types (f : point PD -> point PD) (Hf : forall p, pptype (f p) = pptype p) l :
  map pptype (map_last f l) = map pptype l.
Proof.
  induction l as [|x l IH]; [reflexivity|]. destruct l as [|y l]; [cbn; now rewrite Hf|].
  change (pptype x :: map pptype (map_last f (y :: l)) = pptype x :: map pptype (y :: l)). now rewrite IH.
Qed.
Lemma cubic_loop_types : forall l st st', cubic_loop (PD:=PD) st l = Ok st' ->
  map pptype (fst st') = map pptype (fst st) ++ map gptype (filter on_type l).
Proof.
  induction l as [|g l IH]; intros [c s] st' H.
  - cbn in H. injection H as <-. cbn. now rewrite app_nil_r.
  - cbn [cubic_loop] in H. destruct (cubic_step (c, s) g) as [st1|e|] eqn:E; cbn [bind] in H; try discriminate.
    rewrite (IH _ _ H). cbn [filter fst]. unfold cubic_step in E. unfold on_type.
    destruct (gptype g) eqn:Eg; try discriminate; try (injection E as <-; reflexivity);
      destruct (pop s) as [? s1], (pop s1) as [? s2]; injection E as <-; cbn [fst];
      rewrite map_app, map_last_types by reflexivity; cbn [map pptype]; rewrite <- app_assoc, ?Eg; reflexivity.
Qed.

Lemma cubic_contour_types l c : cubic_contour (PD:=PD) l = Ok c ->
  map pptype c = match map gptype (filter on_type l) with [Move] => [] | ts => ts end.
Proof.
  unfold cubic_contour. intros H.
  destruct (cubic_loop ([], []) l) as [[c0 s]|e|] eqn:E; cbn [bind] in H; try discriminate.
  apply cubic_loop_types in E. cbn [fst map app] in E.
  destruct (pop s) as [h1 s1], (pop s1) as [h2 s2].
  assert (map pptype (map_last (fun p => with_a p (handle_of_gp h1)) c0) = map pptype c0) as E2 by (apply map_last_types; reflexivity).
  rewrite E in E2. destruct (map_last (fun p => with_a p (handle_of_gp h1)) c0) as [|p t] eqn:E3.
  - injection H as <-. rewrite <- E2. reflexivity.
  - assert (exists p', (if negb (ptype_eqb (pptype p) Move) then map_first (fun p => with_b p (handle_of_gp h2)) (p :: t) else p :: t) = p' :: t /\ pptype p' = pptype p) as (p' & E4 & E5).
    { destruct (negb _); cbn [map_first]; eauto. }
    rewrite E4 in H. rewrite <- E2. cbn [map]. destruct t as [|q t].
    + cbn [map]. rewrite E5 in H. destruct (ptype_eqb_spec (pptype p) Move) as [Em|Em]; injection H as <-.
      * now rewrite Em.
      * cbn. rewrite E5. now destruct (pptype p).
    + injection H as <-. cbn [map]. rewrite E5. now destruct (pptype p).
Qed.

Lemma quad_nonempty L : forall l st, fst (fold_left (quad_step (PD:=PD) L) l st) = [] -> fst st = [] /\
  Forall (fun g => offcurve g = true) l.
Proof.
  induction l as [|g l IH]; intros [c s] H; [auto|]. cbn [fold_left] in H. apply IH in H as [H1 H2].
  unfold quad_step in H1. rewrite offcurve_is in H1. destruct (offcurve g) eqn:E; cbn [negb] in H1.
  - destruct (s ++ [g]) as [|? [|? [|? ?]]]; cbn [fst] in *; auto;
    apply app_eq_nil in H1 as [_ H1]; discriminate.
  - destruct s as [|? [|? [|? ?]]]; cbn [fst] in *; apply app_eq_nil in H1 as [_ H1]; discriminate.
Qed.

Lemma unread_iff L gc : contour_of_glif (PD:=PD) L gc = Ok [] <-> unread gc.
Proof.
  destruct gc as [|g t].
  { cbn. split; [discriminate|]. intros (g & t & E & _). discriminate. }
  assert (forall P, (exists g0 t0, g :: t = g0 :: t0 /\ P g0 t0) <-> P g t) as Hex.
  { intros P. split; [intros (g0 & t0 & [= <- <-] & H); exact H|eauto]. }
  unfold unread. rewrite Hex. clear Hex. unfold contour_of_glif.
  assert (forall l, cubic_contour (PD:=PD) l = Ok [] <->
     (forall x, In x l -> gptype x <> QCurve) /\ (map gptype (filter on_type l) = [] \/ map gptype (filter on_type l) = [Move])) as Hc.
  { intros l. split.
    - intros H. split.
      + intros x Hx Hq. assert (cubic_contour (PD:=PD) l = Panic) by (apply cubic_contour_panic; eauto). congruence.
      + apply cubic_contour_types in H. cbn in H. destruct (map gptype (filter on_type l)) as [|[] [|? ?]]; auto; discriminate.
    - intros (Hq & H). destruct (cubic_contour l) as [c|e|] eqn:E.
      + apply cubic_contour_types in E. destruct c; [reflexivity|]. exfalso. destruct H as [H|H]; rewrite H in E; discriminate.
      + now apply cubic_contour_no_err in E.
      + apply cubic_contour_panic in E as (x & Hx & Hx'). now apply Hq in Hx. }
  assert (on_type g = true -> (cubic_contour (PD:=PD) (g :: t) = Ok [] <->
    gptype g = Move /\ forall h, In h t -> gptype h = OffCurve \/ gptype h = Undefined \/ gptype h = QClose)) as Hc'.
  { intros Hon. rewrite Hc. cbn [filter]. rewrite Hon. cbn [map]. split.
    - intros (Hq & [H|H]); [discriminate|]. injection H as Hg Ht. split; [assumption|].
      intros h Hh. apply map_eq_nil in Ht. assert (on_type h = false) as Eh.
      { destruct (on_type h) eqn:X; [|reflexivity]. assert (In h (filter on_type t)) as Y by (apply filter_In; auto).
        rewrite Ht in Y. destruct Y. }
      specialize (Hq h (or_intror Hh)). unfold on_type in Eh. destruct (gptype h); auto; try discriminate; congruence.
    - intros (Hg & Ht). split.
      + intros x [<-|Hx] X; [congruence|]. destruct (Ht x Hx) as [Y|[Y|Y]]; congruence.
      + right. rewrite Hg. f_equal. assert (filter on_type t = []) as ->; [|reflexivity].
        clear -Ht. induction t as [|h t IH]; [reflexivity|]. cbn [filter].
        destruct (Ht h (or_introl eq_refl)) as [Y|[Y|Y]]; unfold on_type at 1; rewrite Y; apply IH; intros; apply Ht; now right. }
  assert (offcurve g = false -> quadratic_contour (PD:=PD) L (g :: t) <> []) as Hqd.
  { intros Hoff H. unfold quadratic_contour in H.
    destruct (fold_left (quad_step L) (g :: t) ([], [])) as [c s] eqn:E.
    assert (c <> []) as Hne.
    { intros ->. assert (fst (fold_left (quad_step (PD:=PD) L) (g :: t) ([], [])) = []) as X by now rewrite E.
      apply quad_nonempty in X as [_ X]. inversion_clear X. congruence. }
    destruct s as [|h s]; [congruence|]. destruct c as [|p c]; [congruence|]. discriminate. }
  unfold on_type, offcurve in *. destruct (gptype g) eqn:Eg.
  - intuition congruence.
  - rewrite Hc' by reflexivity. intuition congruence.
  - rewrite Hc' by reflexivity. intuition congruence.
  - split; [intros [= H]; now apply Hqd in H|]. intuition congruence.
  - split; [intros [= H]; now apply Hqd in H|]. intuition congruence.
  - rewrite Hc' by reflexivity. intuition congruence.
  - intuition congruence.
Qed.

Lemma contour_panic L gc : contour_of_glif (PD:=PD) L gc = Panic <-> unreadable gc.
Proof.
  unfold unreadable, contour_of_glif. destruct gc as [|g t]; [split; auto|].
  assert (on_type g = true -> (cubic_contour (PD:=PD) (g :: t) = Panic <-> exists h, In h t /\ gptype h = QCurve)) as H.
  { intros Hon. rewrite cubic_contour_panic. split; [|intros (h & Hh & X); exists h; split; [now right|assumption]].
    intros (h & [<-|Hh] & X); [unfold on_type in Hon; rewrite X in Hon; discriminate|eauto]. }
  unfold on_type in H. split.
  - intros E. right. exists g, t. split; [reflexivity|]. destruct (gptype g); try discriminate; rewrite H in E by reflexivity; auto.
  - intros [X|(g0 & t0 & [= <- <-] & Hg & Hh)]; [discriminate|]. destruct Hg as [Hg|[Hg|Hg]]; rewrite Hg in *; now apply H.
Qed.
Lemma contour_no_err L gc e : contour_of_glif (PD:=PD) L gc <> Err e.
Proof.
  unfold contour_of_glif. destruct gc as [|g t]; [discriminate|].
  destruct (gptype g); try discriminate; apply cubic_contour_no_err.
Qed.

Lemma mapM_panic {A B} (f : A -> res B) (Hne : forall x e, f x <> Err e) l :
  (mapM f l = Panic <-> exists x, In x l /\ f x = Panic) /\ (forall e, mapM f l <> Err e).
Proof.
  induction l as [|x l [IH1 IH2]].
  - cbn. split; [split; [discriminate|intros (x & [] & _)]|discriminate].
  - cbn [mapM]. destruct (f x) as [y|e|] eqn:E; cbn [bind].
    + destruct (mapM f l) as [ys|e|] eqn:El; cbn [bind].
      * split; [|discriminate]. split; [discriminate|]. intros (z & [<-|Hz] & H); [congruence|].
        assert (Ok ys = Panic) as X by (apply IH1; eauto). discriminate.
      * exfalso. now apply (IH2 e).
      * split; [|discriminate]. split; [|reflexivity]. intros _. destruct (proj1 IH1 eq_refl) as (z & Hz & H).
        exists z. split; [now right|assumption].
    + exfalso. exact (Hne x e E).
    + split; [|discriminate]. split; [|reflexivity]. intros _. exists x. split; [now left|assumption].
Qed.
Lemma mapM_ok {A B} (f : A -> res B) l ys : mapM f l = Ok ys <-> Forall2 (fun x y => f x = Ok y) l ys.
Proof.
  revert ys. induction l as [|x l IH]; intros ys; cbn [mapM].
  - split; [intros [= <-]; constructor|]. intros H. now inversion_clear H.
  - destruct (f x) as [y|e|] eqn:E; cbn [bind].
    + destruct (mapM f l) as [zs|e|] eqn:El; cbn [bind].
      * split; [intros [= <-]; constructor; [assumption|now apply IH]|]. intros H. inversion H as [|? y' ? ys' H1 H2]; subst.
        apply IH in H2. congruence.
      * split; [discriminate|]. intros H. inversion H as [|? y' ? ys' H1 H2]; subst. apply IH in H2. congruence.
      * split; [discriminate|]. intros H. inversion H as [|? y' ? ys' H1 H2]; subst. apply IH in H2. congruence.
    + split; [discriminate|]. intros H. inversion H; subst. congruence.
    + split; [discriminate|]. intros H. inversion H; subst. congruence.
Qed.

Lemma outline_panic L gcs :
  (outline_of_glif (PD:=PD) L gcs = Panic <-> exists gc, In gc gcs /\ unreadable gc) /\
  (forall e, outline_of_glif (PD:=PD) L gcs <> Err e).
Proof.
  unfold outline_of_glif. destruct (mapM_panic (contour_of_glif (PD:=PD) L) (contour_no_err L) gcs) as [H1 H2].
  split.
  - assert ((exists gc, In gc gcs /\ unreadable gc) <-> exists gc, In gc gcs /\ contour_of_glif (PD:=PD) L gc = Panic) as ->.
    { split; intros (gc & Hin & H); exists gc; split; auto; now apply (contour_panic L). }
    rewrite <- H1. destruct (mapM (contour_of_glif L) gcs); cbn [bind]; split; (discriminate || reflexivity).
  - intros e. specialize (H2 e). destruct (mapM (contour_of_glif L) gcs); cbn [bind]; intros X; [discriminate| |discriminate].
    apply H2. congruence.
Qed.

Lemma outline_kept L gcs o : outline_of_glif (PD:=PD) L gcs = Ok o ->
  kept_in_order (fun gc c => contour_of_glif L gc = Ok c /\ c <> []) unread gcs o.
Proof.
  unfold outline_of_glif. intros H. destruct (mapM (contour_of_glif L) gcs) as [cs|e|] eqn:E; cbn [bind] in H; try discriminate.
  injection H as <-. apply mapM_ok in E. induction E as [|gc c gcs cs Hc _ IH]; [constructor|]. cbn [filter].
  destruct c as [|p c].
  - apply kept_lost; [now apply (unread_iff L)|assumption].
  - apply kept_one; [|split; [assumption|discriminate]|assumption]. intros X. apply (unread_iff L) in X. congruence.
Qed.

(** ** Quadratic contours *)

Lemma copied_plain g : copied (PD:=PD) g = plain_point g.
Proof. reflexivity. Qed.

Definition stack_of (o : option glifpoint) : list glifpoint := match o with Some g => [g] | None => [] end.

Lemma with_implied_2 hf g h t : with_implied (PD:=PD) hf (g :: h :: t) =
  if offcurve g then if offcurve h then copied g :: hf g h :: with_implied hf (h :: t)
                     else copied g :: with_implied hf (h :: t)
  else copied g :: with_implied hf (h :: t).
Proof. reflexivity. Qed.
Lemma with_implied_ne hf g t : exists w, with_implied (PD:=PD) hf (g :: t) = copied g :: w.
Proof. destruct t as [|h t]; [eexists; reflexivity|]. pose proof (with_implied_2 hf g h t) as E. destruct (offcurve g), (offcurve h); eauto. Qed.
Lemma removelast_cons {A} (x : A) l : l <> [] -> removelast (x :: l) = x :: removelast l.
Proof. destruct l; [congruence|reflexivity]. Qed.

Definition dropped (o : option glifpoint) (l : list (point PD)) := match o with Some _ => removelast l | None => l end.

Lemma quad_fold L : forall l c o,
  match o with Some g => offcurve g = true | None => True end ->
  exists o', fold_left (quad_step (PD:=PD) L) l (c, stack_of o) =
    (c ++ dropped o' (with_implied (half (PD:=PD) L) (stack_of o ++ l)), stack_of o') /\
  match o' with
  | Some g => offcurve g = true /\ exists m, stack_of o ++ l = m ++ [g]
  | None => stack_of o ++ l = [] \/ exists m g, stack_of o ++ l = m ++ [g] /\ offcurve g = false
  end.
Proof.
  induction l as [|g l IH]; intros c o Ho.
  - destruct o as [g|]; cbn [stack_of app fold_left].
    + exists (Some g). cbn. rewrite app_nil_r. split; [reflexivity|]. split; [assumption|]. exists []. reflexivity.
    + exists None. cbn. rewrite app_nil_r. auto.
  - cbn [fold_left]. unfold quad_step at 2. rewrite offcurve_is. destruct (offcurve g) eqn:Eg; cbn [negb].
    + destruct o as [h|]; cbn [stack_of app].
      * destruct (IH (c ++ [plain_point h; half L h g]) (Some g) Eg) as (o' & E & Hend). cbn [stack_of app] in *.
        exists o'. change (implied_point (mid L (gx h) (gx g)) (mid L (gy h) (gy g)) QCurve (gname g)) with (half (PD:=PD) L h g).
        refine (conj (eq_trans E _) _).
        -- rewrite with_implied_2, Ho, Eg. f_equal. rewrite <- app_assoc. f_equal. unfold dropped. destruct o' as [z|]; [|reflexivity].
           destruct (with_implied_ne (half (PD:=PD) L) g l) as [w ->].
           rewrite (removelast_cons (copied h)), (removelast_cons (half (PD:=PD) L h g)) by discriminate. reflexivity.
        -- destruct o' as [z|].
           ++ destruct Hend as [Hz (m & Em)]. split; [assumption|]. exists (h :: m). now rewrite Em.
           ++ destruct Hend as [X|(m & z & Em & Hz)]; [discriminate|]. right. exists (h :: m), z. now rewrite Em.
      * destruct (IH c (Some g) Eg) as (o' & E & Hend). cbn [stack_of app] in *. exists o'. split; assumption.
    + assert (with_implied (half (PD:=PD) L) (g :: l) = copied g :: with_implied (half (PD:=PD) L) l) as Ew.
      { destruct l; [reflexivity|]. rewrite with_implied_2. now rewrite Eg. }
      assert (forall c', exists o', fold_left (quad_step L) l (c', []) =
         (c' ++ dropped o' (with_implied (half (PD:=PD) L) l), stack_of o') /\
         match o' with
         | Some z => offcurve z = true /\ exists m, l = m ++ [z]
         | None => l = [] \/ exists m z, l = m ++ [z] /\ offcurve z = false
         end) as IH' by (intros c'; exact (IH c' None I)).
      assert (forall (x : point PD) o', match o' with Some z => offcurve z = true /\ exists m, l = m ++ [z] | None => l = [] \/ exists m z, l = m ++ [z] /\ offcurve z = false end ->
        x :: dropped o' (with_implied (half (PD:=PD) L) l) =
        dropped o' (x :: with_implied (half (PD:=PD) L) l)) as Hcons.
      { intros x o' H. unfold dropped. destruct o' as [z|]; [|reflexivity]. destruct H as [_ (m & ->)].
        symmetry. apply removelast_cons. destruct m as [|y m]; [discriminate|]. cbn [app].
        destruct (with_implied_ne (half (PD:=PD) L) y (m ++ [z])) as [w ->]. discriminate. }
      destruct o as [h|]; cbn [stack_of app].
      * destruct (IH' (c ++ [plain_point h; plain_point g])) as (o' & E & Hend). exists o'.
        assert (with_implied (half (PD:=PD) L) (h :: g :: l) = copied h :: copied g :: with_implied (half (PD:=PD) L) l) as Ew2.
        { rewrite <- Ew, with_implied_2. now rewrite Ho, Eg. }
        refine (conj (eq_trans E _) _).
        -- rewrite Ew2. f_equal. rewrite <- app_assoc. cbn [app]. rewrite <- (copied_plain h), <- (copied_plain g). f_equal.
           rewrite (Hcons (copied g) o' Hend). unfold dropped. destruct o' as [z|]; [|reflexivity].
           symmetry. apply removelast_cons. discriminate.
        -- destruct o' as [z|].
           ++ destruct Hend as [Hz (m & Em)]. split; [assumption|]. exists (h :: g :: m). now rewrite Em.
           ++ right. destruct Hend as [->|(m & z & Em & Hz)]; [exists [h], g; auto|]. exists (h :: g :: m), z. now rewrite Em.
      * destruct (IH' (c ++ [plain_point g])) as (o' & E & Hend). exists o'. refine (conj (eq_trans E _) _).
        -- rewrite Ew. f_equal. rewrite <- app_assoc. cbn [app]. rewrite <- copied_plain. f_equal. now apply Hcons.
        -- destruct o' as [z|].
           ++ destruct Hend as [Hz (m & Em)]. split; [assumption|]. exists (g :: m). now rewrite Em.
           ++ right. destruct Hend as [->|(m & z & Em & Hz)]; [exists [], g; auto|]. exists (g :: m), z. now rewrite Em.
Qed.

(** The last point is copied last. *)
Lemma with_implied_snoc hf : forall m z, exists w, with_implied (PD:=PD) hf (m ++ [z]) = w ++ [copied z].
Proof.
  induction m as [|y m IH]; intros z; [exists []; reflexivity|]. cbn [app].
  destruct (m ++ [z]) as [|y' r] eqn:E; [destruct m; discriminate|]. destruct (IH z) as (w & Ew). rewrite E in Ew.
  pose proof (with_implied_2 hf y y' r) as E2. rewrite Ew in E2. destruct (offcurve y), (offcurve y').
  - exists (copied y :: hf y y' :: w). exact E2.
  - exists (copied y :: w). exact E2.
  - exists (copied y :: w). exact E2.
  - exists (copied y :: w). exact E2.
Qed.

Lemma removelast_restore {A} (w : list A) x : removelast (w ++ [x]) = w.
Proof. apply removelast_last. Qed.

Lemma read_quadratic L g t z : gptype g = QCurve \/ gptype g = QClose -> last t g = z ->
  contour_of_glif (PD:=PD) L (g :: t) =
  Ok (with_implied (half (PD:=PD) L) (g :: t) ++ if offcurve z then [closing L z g] else []).
Proof.
  intros Hg Hz. assert (offcurve g = false) as Hoff by (unfold offcurve; destruct Hg as [-> | ->]; reflexivity).
  assert (contour_of_glif (PD:=PD) L (g :: t) = Ok (quadratic_contour L (g :: t))) as ->.
  { unfold contour_of_glif. destruct Hg as [-> | ->]; reflexivity. }
  f_equal. unfold quadratic_contour. destruct (quad_fold L (g :: t) [] None I) as (o' & E & Hend).
  cbn [stack_of app] in *. unfold contour in E |- *. rewrite E.
  assert (exists w', with_implied (half (PD:=PD) L) (g :: t) = copied g :: w') as (w' & Ew).
  { apply with_implied_ne. }
  assert (exists m, g :: t = m ++ [z]) as (m & Em).
  { exists (removelast (g :: t)). rewrite <- Hz. replace (last t g) with (last (g :: t) g) by (destruct t; reflexivity).
    apply app_removelast_last. discriminate. }
  destruct o' as [y|]; cbn [stack_of].
  - destruct Hend as [Hy (m' & Em')]. rewrite Em in Em'. apply app_inj_tail in Em' as [_ <-]. rewrite Hy.
    destruct (with_implied_snoc (half (PD:=PD) L) m z) as (w & Ez). rewrite <- Em, Ew in Ez. rewrite Ew, Ez. unfold dropped. rewrite removelast_restore.
    destruct w as [|p w].
    + exfalso. cbn [app] in Ez. apply (f_equal (fun l => option_map pptype (hd_error l))) in Ez. cbn in Ez. injection Ez as X.
      unfold offcurve in Hy, Hoff. rewrite X in Hoff. congruence.
    + cbn [app] in Ez. injection Ez as <- _. cbn [pptype copied].
      rewrite offcurve_is, Hoff, <- app_assoc. reflexivity.
  - cbn [dropped]. destruct Hend as [X|(m' & y & Em' & Hy)]; [discriminate|]. rewrite Em in Em'. apply app_inj_tail in Em' as [_ <-].
    now rewrite Hy, app_nil_r.
Qed.

(** Direct calls, whatever the first point. *)
Lemma quadratic_direct L g t z : last t g = z ->
  quadratic_contour (PD:=PD) L (g :: t) =
  match t with
  | [] => if offcurve g then [] else [copied g]
  | _ => with_implied (half (PD:=PD) L) (g :: t) ++
         if offcurve z then [with_ptype (closing L z g) (if offcurve g then QCurve else QClose)] else []
  end.
Proof.
  intros Hz. destruct t as [|h t].
  { unfold quadratic_contour. cbn [fold_left quad_step]. rewrite !offcurve_is. destruct (offcurve g) eqn:E; cbn [app negb].
    - reflexivity.
    - reflexivity. }
  unfold quadratic_contour. destruct (quad_fold L (g :: h :: t) [] None I) as (o' & E & Hend).
  cbn [stack_of app] in *. unfold contour in E |- *. rewrite E.
  assert (exists w', with_implied (half (PD:=PD) L) (g :: h :: t) = copied g :: w' /\ w' <> []) as (w' & Ew & Hw).
  { rewrite with_implied_2. destruct (with_implied_ne (half (PD:=PD) L) h t) as [w ->].
    destruct (offcurve g), (offcurve h); eexists; (split; [reflexivity|discriminate]). }
  assert (exists m, g :: h :: t = m ++ [z]) as (m & Em).
  { exists (removelast (g :: h :: t)). rewrite <- Hz. replace (last (h :: t) g) with (last (g :: h :: t) g) by reflexivity.
    apply app_removelast_last. discriminate. }
  destruct o' as [y|]; cbn [stack_of].
  - destruct Hend as [Hy (m' & Em')]. rewrite Em in Em'. apply app_inj_tail in Em' as [_ <-]. rewrite Hy.
    destruct (with_implied_snoc (half (PD:=PD) L) m z) as (w & Ez). rewrite <- Em, Ew in Ez. rewrite Ew, Ez. unfold dropped. rewrite removelast_restore.
    destruct w as [|p w].
    + exfalso. cbn [app] in Ez. injection Ez as _ _ _ _ _ X. congruence.
    + cbn [app] in Ez. injection Ez as <- _. cbn [pptype copied].
      rewrite offcurve_is, <- app_assoc. destruct (offcurve g); reflexivity.
  - cbn [dropped]. destruct Hend as [X|(m' & y & Em' & Hy)]; [discriminate|]. rewrite Em in Em'. apply app_inj_tail in Em' as [_ <-].
    now rewrite Hy, app_nil_r.
Qed.

Lemma no_adjacent_cons p c : no_adjacent_off c -> (pptype p <> OffCurve \/ match c with q :: _ => pptype q <> OffCurve | [] => True end) ->
  no_adjacent_off (p :: c).
Proof.
  intros Hc H [|x l] a b r E; cbn [app] in E; injection E as -> E; intros [H1 H2].
  - subst c. destruct H; congruence.
  - now apply (Hc l a b r E).
Qed.

Lemma with_implied_no_adjacent L : forall gc, no_adjacent_off (with_implied (half (PD:=PD) L) gc).
Proof.
  induction gc as [|g t IH]; [intros [|? [|? ?]] ? ? ? E; discriminate|].
  destruct t as [|h t].
  { intros [|? [|? ?]] ? ? ? E; discriminate. }
  assert (exists w', with_implied (half (PD:=PD) L) (h :: t) = copied (PD:=PD) h :: w') as (w' & Ew).
  { apply with_implied_ne. }
  change (with_implied (half (PD:=PD) L) (g :: h :: t)) with
    (if offcurve g then if offcurve h then copied g :: half L g h :: with_implied (half (PD:=PD) L) (h :: t)
                         else copied g :: with_implied (half (PD:=PD) L) (h :: t)
      else copied g :: with_implied (half (PD:=PD) L) (h :: t)).
  destruct (offcurve g) eqn:Eg; [destruct (offcurve h) eqn:Eh|].
  - apply no_adjacent_cons; [|right; discriminate]. apply no_adjacent_cons; [assumption|left; discriminate].
  - apply no_adjacent_cons; [assumption|]. right. rewrite Ew. cbn. intros X. unfold offcurve in Eh. rewrite X in Eh. discriminate.
  - apply no_adjacent_cons; [assumption|]. left. cbn. intros X. unfold offcurve in Eg. rewrite X in Eg. discriminate.
Qed.

End Cubic.
