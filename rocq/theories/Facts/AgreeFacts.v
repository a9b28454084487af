(** Pen operations, kurbo paths and Skia paths of the same contour. *)
Require Import Coq.Lists.List Coq.Arith.Arith Coq.Bool.Bool Coq.micromega.Lia.
Require Import Verif.Model.Base Verif.Model.Float Verif.Model.Num Verif.Model.RustNum Verif.Model.Point Verif.Model.Contour Verif.Model.Refigure Verif.Model.Penops
  Verif.Model.Kurbo Verif.Model.Skia
  Verif.Spec.ContourSpec Verif.Spec.PathSpec Verif.Spec.SkiaSpec Verif.Spec.AgreeSpec Verif.Facts.FloatFacts Verif.Facts.RefigureFacts.
Import ListNotations.

Lemma kind_drawn a b : kind_of a b = Line \/ kind_of a b = Curve.
Proof. destruct a, b; cbn; auto. Qed.
Section Agree.
Context {PD : Type}.
Implicit Types c : contour PD.

Lemma segs_kinds (p : point PD) l s : In s (segs_from p l) -> exists q, In q l /\ sg_kind s = pptype q.
Proof.
  revert p. induction l as [|q l IH]; intros p H; [destruct H|]. destruct H as [<-|H].
  - exists q. split; [now left|reflexivity].
  - destruct (IH q H) as (r & I & E). exists r. split; [now right|exact E].
Qed.
(** The types that are left when the types are recomputed. *)
Lemma refigured_types c p t : 2 <= length c -> refigure c = Ok c -> c = p :: t ->
  (pptype p = Move \/ pptype p = Line \/ pptype p = Curve) /\ Forall (fun q => pptype q = Line \/ pptype q = Curve) t.
Proof.
  intros Hl Hr E. destruct (refigure_types c c Hl Hr) as (_ & _ & T & _ & C). split.
  - destruct t as [|q t]; [subst; cbn in Hl; lia|].
    assert (pptype p = Move \/ pptype p <> Move) as [M|M] by (destruct (pptype p); auto; right; discriminate); [now left|right].
    destruct (nth_error c (length c - 1)) as [l|] eqn:El; [|apply nth_error_None in El; lia].
    rewrite (C (ex_intro _ p (ex_intro _ q (ex_intro _ t (conj E M)))) p l); [apply kind_drawn|now rewrite E|reflexivity].
  - apply Forall_forall. intros q I. apply In_nth_error in I as [i Hi].
    assert (nth_error c (S i) = Some q) as Hq by now rewrite E.
    destruct (nth_error c i) as [r|] eqn:Er.
    + rewrite (T i q r Er Hq). apply kind_drawn.
    + apply nth_error_None in Er. assert (S i < length c) by (apply nth_error_Some; congruence). lia.
Qed.
Lemma refigured_drawable c : 2 <= length c -> refigure c = Ok c -> drawable_contour c.
Proof.
  intros Hl Hr. destruct c as [|p t]; [cbn in Hl; lia|]. destruct (refigured_types _ p t Hl Hr eq_refl) as [Hp Ht].
  exists p, t. split; [reflexivity|]. unfold drawable. split; [tauto|]. eapply Forall_impl; [|exact Ht]. cbn. tauto.
Qed.
Lemma segments_kinds c s : 2 <= length c -> refigure c = Ok c -> In s (segments c) -> sg_kind s = Line \/ sg_kind s = Curve.
Proof.
  intros Hl Hr I. destruct c as [|p t]; [destruct I|]. destruct (refigured_types _ p t Hl Hr eq_refl) as [Hp Ht]. rewrite Forall_forall in Ht.
  cbn [segments] in I. destruct (pptype p) eqn:E; try (destruct Hp as [Hp|[Hp|Hp]]; discriminate Hp).
  1: { apply segs_kinds in I as (q & I & ->). auto. }
  all: cbn [closed_segments] in I; apply segs_kinds in I as (q & I & ->); apply in_app_iff in I as [I|[<-|[]]]; [auto|rewrite E; auto].
Qed.
Lemma looks_alike (L : numlib) c : 2 <= length c -> refigure c = Ok c ->
  map (look L) (segments c) = map (penned L) (strokes c).
Proof.
  intros Hl Hr. unfold strokes. rewrite map_map. apply map_ext_in. intros s I. destruct (segments_kinds c s Hl Hr I) as [E|E];
    unfold look, sk_look, penned, moved; rewrite E; rewrite <- ?surjective_pairing; reflexivity.
Qed.
End Agree.

(** A pen and kurbo draw the same. *)
Definition kplace (p : place) : f64 * f64 := (f64_of_iof (fst p), f64_of_iof (snd p)).
Definition kdrawn (d : drawn) : kstroke :=
  match d with
  | DLine p q => KLine (kplace p) (kplace q)
  | DQuad p a q => KQuad (kplace p) (kplace a) (kplace q)
  | DCurve p a b q => KCubic (kplace p) (kplace a) (kplace b) (kplace q)
  end.
Lemma pen_kurbo st ops l : PathSpec.draws st ops l ->
  kurbo_draws (option_map (fun s => (kplace (fst s), kplace (snd s))) st) (map pathel_of_penop ops) (map kdrawn l).
Proof. intros H. induction H; cbn [map option_map fst snd pathel_of_penop kdrawn] in *; now constructor. Qed.
Lemma penned_widened s : kdrawn (penned rust_num s) = widened s.
Proof. destruct s; reflexivity. Qed.

(** The operations have no numbers but those of the contour. *)
Section Numbers.
Context {PD : Type} (L : numlib) (P : place -> Prop).
Definition op_all (o : penop) : Prop := Forall (fun g => P (at_gp g)) (penop_points o).
Definition point_all (p : point PD) : Prop :=
  P (num_at L (px p, py p)) /\ P (num_at L (handle_at (px p, py p) (pa p))) /\ P (num_at L (handle_at (px p, py p) (pb p))).
Lemma gp_all p : point_all p -> P (at_gp (gp_of_point L p)).
Proof. intros (H & _). exact H. Qed.
Lemma out_all p : point_all p -> P (at_gp (gp_from_handle L p WA)).
Proof. intros (_ & H & _). unfold gp_from_handle, handle_or_colocated. cbn [get_handle]. destruct (pa p); exact H. Qed.
Lemma in_all p : point_all p -> P (at_gp (gp_from_handle L p WB)).
Proof. intros (_ & _ & H). unfold gp_from_handle, handle_or_colocated. cbn [get_handle]. destruct (pb p); exact H. Qed.
Lemma removelast_all {A} (Q : A -> Prop) l : Forall Q l -> Forall Q (removelast l).
Proof. intros H. induction H as [|x l Hx Hl IH]; [constructor|]. cbn [removelast]. destruct l; [constructor|now constructor]. Qed.
Lemma map_last_all {A} (Q : A -> Prop) f l : (forall x, Q x -> Q (f x)) -> Forall Q l -> Forall Q (map_last f l).
Proof. intros Hf H. induction H as [|x l Hx Hl IH]; [constructor|]. cbn [map_last]. destruct l; constructor; auto. Qed.
Lemma idx_in {A} (l : list A) i x : idx l i = Ok x -> In x l.
Proof. unfold idx. destruct (nth_error l i) eqn:E; [|discriminate]. intros [= <-]. eapply nth_error_In; eassumption. Qed.
Lemma step_all (c : contour PD) vec i vec' : Forall point_all c -> Forall op_all vec -> penop_step L c vec i = Ok vec' -> Forall op_all vec'.
Proof.
  intros Hc Hv. rewrite Forall_forall in Hc. unfold penop_step. destruct (idx c i) as [p| |] eqn:Ei; try discriminate. apply idx_in, Hc in Ei. cbn [bind].
  assert (forall o v, op_all o -> Forall op_all v -> Forall op_all (v ++ [o])) as Q by (intros o v Ho Hv'; apply Forall_app; split; [assumption|now constructor]).
  destruct (pptype p); try discriminate.
  - intros [= <-]. apply Q; [|assumption]. repeat constructor. now apply gp_all.
  - destruct (contour_prev_next c i) as [[pr [nx|]]| |]; try discriminate.
    + destruct (idx c nx) as [q| |] eqn:Eq; destruct pr; try discriminate; apply idx_in, Hc in Eq; cbn [bind]; intros [= <-]; (apply Q; [|assumption]);
        (constructor; [now apply out_all|constructor; [now apply in_all|constructor; [now apply gp_all|constructor]]]).
    + destruct pr as [pr|]; try discriminate. destruct (idx c pr) as [q| |] eqn:Eq; try discriminate. apply idx_in, Hc in Eq. cbn [bind]. intros [= <-]. apply Q; [|assumption].
      constructor; [now apply out_all|constructor; [now apply in_all|constructor; [now apply gp_all|constructor]]].
  - intros [= <-]. apply Q; [|assumption]. constructor; [now apply out_all|constructor; [now apply gp_all|constructor]].
  - destruct (i =? 1).
    + destruct vec as [|o vec]; [discriminate|]. cbn [pop_unwrap bind]. intros [= <-]. apply Q; [repeat constructor; now apply gp_all|now apply (removelast_all op_all (o :: vec))].
    + intros [= <-]. apply Q; [|assumption]. repeat constructor. now apply gp_all.
Qed.
Lemma loop_all (c : contour PD) is : forall vec vec', Forall point_all c -> Forall op_all vec -> penop_loop L c vec is = Ok vec' -> Forall op_all vec'.
Proof.
  induction is as [|i is IH]; intros vec vec' Hc Hv; cbn [penop_loop]; [now intros [= <-]|].
  destruct (penop_step L c vec i) as [v| |] eqn:E; try discriminate. cbn [bind]. apply IH; [assumption|]. eapply step_all; eassumption.
Qed.
Lemma ops_all (c c' : contour PD) ops : into_pen_operations L c = Ok (ops, c') -> Forall point_all c' -> Forall op_all ops.
Proof.
  unfold into_pen_operations. destruct (refigure c) as [d| |]; try discriminate. cbn [bind]. intros H Hc.
  destruct (is_closed c).
  - destruct d as [|p t]; [discriminate|]. cbn [bind] in H. destruct (penop_loop L (p :: t) _ _) as [v| |] eqn:E; try discriminate. cbn [bind] in H.
    destruct (rev (p :: t)) as [|l r]; [discriminate|]. injection H as <- <-.
    assert (point_all p) as Hp by now inversion Hc.
    apply loop_all in E; [|assumption|repeat constructor; now apply gp_all].
    apply Forall_app. split; [|repeat constructor]. destruct (_ && _); [|assumption]. apply map_last_all; [|assumption].
    intros [g|g|a g|a b g|]; try tauto. intros K. inversion K as [|? ? K1 K2]; subst. inversion K2 as [|? ? K3 K4]; subst. constructor; [assumption|]. constructor; [assumption|]. constructor; [now apply gp_all|constructor].
  - cbn [bind] in H. destruct (penop_loop L d _ _) as [v| |] eqn:E; try discriminate. injection H as <- <-. eapply loop_all; [exact Hc|constructor|exact E].
Qed.
End Numbers.

(** Kurbo draws no more than the pen, if different places are different for kurbo. *)
Definition float_place (p : place) : Prop := exists x y, p = (IFloat x, IFloat y) /\ valid32 x = true /\ valid32 y = true.
Lemma kplace_inj p q : float_place p -> float_place q -> kplace p = kplace q -> p = q.
Proof.
  intros (x & y & -> & V1 & V2) (x' & y' & -> & V3 & V4). unfold kplace. cbn [fst snd f64_of_iof]. intros [= E1 E2].
  now rewrite <- (f32_of_f64_of_f32 x V1), E1, f32_of_f64_of_f32, <- (f32_of_f64_of_f32 y V2), E2, f32_of_f64_of_f32.
Qed.
Definition drawn_all (P : place -> Prop) (d : drawn) : Prop :=
  match d with DLine p q => P p /\ P q | DQuad p a q => P p /\ P a /\ P q | DCurve p a b q => P p /\ P a /\ P b /\ P q end.
Lemma close_inv s c path l : kurbo_draws (Some (s, c)) (KClosePath :: path) l ->
  (exists l', l = KLine c s :: l' /\ kurbo_draws (Some (s, s)) path l') \/ (c = s /\ kurbo_draws (Some (s, s)) path l).
Proof. intros H. inversion H; subst; [left; eauto|now right]. Qed.
Lemma kurbo_pen ops : forall st l, (forall s c, st = Some (s, c) -> float_place s /\ float_place c) -> Forall (op_all float_place) ops -> Forall (drawn_all float_place) l ->
  kurbo_draws (option_map (fun s => (kplace (fst s), kplace (snd s))) st) (map pathel_of_penop ops) (map kdrawn l) -> PathSpec.draws st ops l.
Proof.
  induction ops as [|o ops IH]; intros st l Hs Ho Hl H.
  - destruct l; [constructor|]. inversion H.
  - inversion Ho as [|? ? O1 O2]; subst. destruct o as [g|g|a g|a b g|]; cbn [map pathel_of_penop] in H.
    + inversion O1 as [|? ? P1 _]; subst. constructor. apply IH; try assumption; [now intros s c [= <- <-]|]. now inversion H.
    + inversion O1 as [|? ? P1 _]; subst. destruct st as [[s c]|]; [|inversion H]. destruct l as [|d l]; [inversion H|]. destruct (Hs s c eq_refl) as [S1 S2].
      inversion Hl as [|? ? D1 D2]; subst. destruct d as [p q|p x q|p x y q]; cbn [map kdrawn] in H; inversion H as [| |? ? ? ? ? H1| | | |]; subst. destruct D1 as [D3 D4].
      assert (p = c) as -> by (apply kplace_inj; auto; unfold kplace, at_gp; cbn [fst snd]; congruence). assert (q = at_gp g) as -> by (apply kplace_inj; auto; unfold kplace, at_gp; cbn [fst snd]; congruence).
      constructor. apply IH; try assumption. now intros s' c' [= <- <-].
    + inversion O1 as [|? ? P1 O3]; subst. inversion O3 as [|? ? P2 _]; subst. destruct st as [[s c]|]; [|inversion H]. destruct l as [|d l]; [inversion H|]. destruct (Hs s c eq_refl) as [S1 S2].
      inversion Hl as [|? ? D1 D2]; subst. destruct d as [p q|p x q|p x y q]; cbn [map kdrawn] in H; inversion H as [| | |? ? ? ? ? ? H1| | |]; subst. destruct D1 as (D3 & D4 & D5).
      assert (p = c) as -> by (apply kplace_inj; auto; unfold kplace, at_gp; cbn [fst snd]; congruence). assert (x = at_gp a) as -> by (apply kplace_inj; auto; unfold kplace, at_gp; cbn [fst snd]; congruence). assert (q = at_gp g) as -> by (apply kplace_inj; auto; unfold kplace, at_gp; cbn [fst snd]; congruence).
      constructor. apply IH; try assumption. now intros s' c' [= <- <-].
    + inversion O1 as [|? ? P1 O3]; subst. inversion O3 as [|? ? P2 O4]; subst. inversion O4 as [|? ? P3 _]; subst.
      destruct st as [[s c]|]; [|inversion H]. destruct l as [|d l]; [inversion H|]. destruct (Hs s c eq_refl) as [S1 S2].
      inversion Hl as [|? ? D1 D2]; subst. destruct d as [p q|p x q|p x y q]; cbn [map kdrawn] in H; inversion H as [| | | |? ? ? ? ? ? ? H1| |]; subst. destruct D1 as (D3 & D4 & D5 & D6).
      assert (p = c) as -> by (apply kplace_inj; auto; unfold kplace, at_gp; cbn [fst snd]; congruence). assert (x = at_gp a) as -> by (apply kplace_inj; auto; unfold kplace, at_gp; cbn [fst snd]; congruence).
      assert (y = at_gp b) as -> by (apply kplace_inj; auto; unfold kplace, at_gp; cbn [fst snd]; congruence). assert (q = at_gp g) as -> by (apply kplace_inj; auto; unfold kplace, at_gp; cbn [fst snd]; congruence).
      constructor. apply IH; try assumption. now intros s' c' [= <- <-].
    + destruct st as [[s c]|]; [|inversion H]. destruct (Hs s c eq_refl) as [S1 S2]. apply close_inv in H as [(l' & E & H)|[E H]].
      * destruct l as [|d l]; [discriminate E|]. inversion Hl as [|? ? D1 D2]; subst. destruct d as [p q|p x q|p x y q]; cbn [map kdrawn] in E; try discriminate E.
        assert (kplace p = kplace c /\ kplace q = kplace s /\ map kdrawn l = l') as (E4 & E5 & <-).
        { pose proof (f_equal (fun l => match l with KLine p _ :: _ => p | _ => kplace p end) E). pose proof (f_equal (fun l => match l with KLine _ q :: _ => q | _ => kplace q end) E).
          pose proof (f_equal (@tl _) E). auto. }
        destruct D1 as [D3 D4]. apply kplace_inj in E4; [|assumption|assumption]. apply kplace_inj in E5; [|assumption|assumption]. subst.
        constructor. apply IH; try assumption. now intros s' c' [= <- <-].
      * apply kplace_inj in E; [|assumption|assumption]. cbn [fst snd] in E. subst. constructor. apply IH; assumption.
Qed.
Lemma segs_all {PD} (P : point PD -> Prop) p l s : P p -> Forall P l -> In s (segs_from p l) ->
  exists a b, P a /\ P b /\ s = seg_between a b.
Proof.
  intros Hp H. revert p Hp. induction H as [|q l Hq _ IH]; intros p Hp I; [destruct I|]. destruct I as [<-|I]; [eauto|]. now apply (IH q).
Qed.
Lemma strokes_all {PD} (L : numlib) (P : place -> Prop) (c : contour PD) : Forall (point_all L P) c -> Forall (drawn_all P) (map (penned L) (strokes c)).
Proof.
  intros H. apply Forall_forall. intros d I. unfold strokes in I. rewrite map_map in I. apply in_map_iff in I as (s & <- & I).
  assert (exists a b : point PD, point_all L P a /\ point_all L P b /\ s = seg_between a b) as (a & b & (A1 & A2 & A3) & (B1 & B2 & B3) & ->).
  { destruct c as [|p t]; [destruct I|]. inversion H as [|? ? Hp Ht]; subst. cbn [segments] in I.
    destruct (pptype p); cbn [open_segments closed_segments] in I; (eapply segs_all; [| |exact I]); try assumption; apply Forall_app; split; try assumption; now constructor. }
  unfold sk_look, moved. cbn [seg_between sg_kind sg_from sg_to sg_in sg_out]. rewrite <- !surjective_pairing. destruct (pptype b); cbn [penned drawn_all]; auto.
Qed.
