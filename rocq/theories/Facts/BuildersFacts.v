(** Facts about chains of builder calls and about contours listed from another point. *)
Require Import Coq.Lists.List Coq.Arith.Arith Coq.micromega.Lia.
Require Import Verif.Model.Base Verif.Model.Float Verif.Model.Num Verif.Model.Point Verif.Model.Parts Verif.Model.Contour
  Verif.Model.Create Verif.Model.Builders
  Verif.Spec.ContourSpec Verif.Spec.OutlineSpec Verif.Spec.BuildersSpec Verif.Facts.ContourFacts Verif.Facts.CreateFacts.
Import ListNotations.

(** ** Chains *)
Lemma gl_fold {PD} (cs : list (gl_call (PD := PD))) : forall g,
  let r := fold_left gl_do cs g in
  gl_x r = gl_x g /\ gl_y r = gl_y g /\ gl_angle r = gl_angle g /\
  gl_name r = match last_given (fun c => match c with CallName s => Some s | _ => None end) cs with Some s => Some s | None => gl_name g end /\
  gl_color r = match last_given (fun c => match c with CallColor s => Some s | _ => None end) cs with Some s => Some s | None => gl_color g end /\
  gl_identifier r = match last_given (fun c => match c with CallIdentifier s => Some s | _ => None end) cs with Some s => Some s | None => gl_identifier g end /\
  gl_data r = or_else (last_given (fun c => match c with CallData s => Some s | _ => None end) cs) (gl_data g).
Proof.
  induction cs as [|c cs IH]; intros g; cbn [fold_left last_given]; [repeat split|].
  destruct (IH (gl_do g c)) as (H1 & H2 & H3 & H4 & H5 & H6 & H7). cbv zeta in *.
  rewrite H1, H2, H3, H4, H5, H6, H7.
  repeat match goal with |- context [last_given ?f cs] => destruct (last_given f cs) end; destruct c; cbn; repeat split.
Qed.

(** ** Another starting point *)
Section Start.
Context {PD : Type}.
Implicit Types c : list (point PD).

Lemma walk_app : forall m g offs h r, offcurve h = false ->
  walk g offs (m ++ h :: r) = walk g offs (m ++ [h]) ++ walk h [] r.
Proof.
  induction m as [|x m IH]; intros g offs h r Hh; cbn [app walk].
  - now rewrite Hh.
  - destruct (offcurve x); [now apply IH|]. cbn [app]. f_equal. now apply IH.
Qed.

Lemma closed_listed_split g m h r : offcurve h = false ->
  closed_listed (g :: m ++ h :: r) = walk g [] (m ++ [h]) ++ walk h [] (r ++ [g]).
Proof. intros Hh. unfold closed_listed. rewrite <- app_assoc. cbn [app]. now apply walk_app. Qed.

Lemma segs_split : forall l (p q : point PD) r, segs_from p (l ++ q :: r) = segs_from p (l ++ [q]) ++ segs_from q r.
Proof. induction l as [|x l IH]; intros p q r; cbn [app segs_from]; [reflexivity|]. f_equal. apply IH. Qed.

Lemma closed_segments_split (p q : point PD) l r :
  closed_segments (p :: l ++ q :: r) = segs_from p (l ++ [q]) ++ segs_from q (r ++ [p]).
Proof. unfold closed_segments. rewrite <- app_assoc. cbn [app]. apply segs_split. Qed.

Lemma segs_length : forall l (p : point PD), length (segs_from p l) = length l.
Proof. induction l; intros; cbn; auto. Qed.
Lemma walk_length : forall l g offs, length (walk g offs l) = length (oncurves l).
Proof. induction l as [|x l IH]; intros; cbn; [reflexivity|]. destruct (offcurve x); cbn; auto. Qed.
Lemma segs_out : forall l (p z : point PD), map sg_out (segs_from p (l ++ [z])) = map pa (p :: l).
Proof. induction l as [|x l IH]; intros p z; cbn; [reflexivity|]. f_equal. apply IH. Qed.
Lemma segs_in : forall l (p : point PD), map sg_in (segs_from p l) = map pb l.
Proof. induction l as [|x l IH]; intros p; cbn; [reflexivity|]. f_equal. apply IH. Qed.

Lemma closed_in (p : point PD) t : map sg_in (closed_segments (p :: t)) = map pb t ++ [pb p].
Proof. cbn [closed_segments]. now rewrite segs_in, map_app. Qed.

Lemma parts_eq : forall c c', map shown c = map shown c' -> map pa c = map pa c' -> map pb c = map pb c' ->
  map pdata c = map pdata c' -> c = c'.
Proof.
  induction c as [|p c IH]; intros [|q c'] H1 H2 H3 H4; try discriminate; [reflexivity|].
  cbn [map] in *. injection H2 as H2 H2'. injection H3 as H3 H3'. injection H4 as H4 H4'. injection H1 as Hx Hy Hn Ht Hs H1.
  f_equal; [|now apply IH]. destruct p, q; cbn in *. congruence.
Qed.

(** A closed contour is determined by its points and segments. *)
Lemma closed_determined c c' : map shown c = map shown c' -> closed_segments c = closed_segments c' ->
  map pdata c = map pdata c' -> c = c'.
Proof.
  intros Hs Hg Hd. destruct c as [|p t], c' as [|q u]; try discriminate; [reflexivity|].
  apply parts_eq; [assumption| | |assumption].
  - apply (f_equal (map sg_out)) in Hg. cbn [closed_segments] in Hg. now rewrite !segs_out in Hg.
  - apply (f_equal (map sg_in)) in Hg. rewrite !closed_in in Hg. apply app_inj_tail in Hg as [H1 H2]. cbn [map]. congruence.
Qed.

Lemma short_app l r : short_runs (l ++ r) -> short_runs l /\ short_runs r.
Proof.
  intros H. split.
  - intros x a b c y ->. eapply (H x a b c (y ++ r)). rewrite <- app_assoc. reflexivity.
  - intros x a b c y ->. eapply (H (l ++ x) a b c y). now rewrite <- app_assoc.
Qed.

Lemma short_join l g r : offcurve g = false -> short_runs l -> short_runs r -> short_runs (l ++ g :: r).
Proof.
  intros Hg Hl Hr x a b c y E.
  apply app_eq_app in E as (w & [[E1 E2]|[E1 E2]]).
  - (* l = x ++ w, a :: b :: c :: y = w ++ g :: r *)
    intros (Ha & Hb & Hc).
    destruct w as [|a' w]; [injection E2 as -> _; congruence|]. injection E2 as <- E2.
    destruct w as [|b' w]; [injection E2 as -> _; congruence|]. injection E2 as <- E2.
    destruct w as [|c' w]; [injection E2 as -> _; congruence|]. injection E2 as <- E2.
    apply (Hl x a b c w); [exact E1|auto].
  - (* x = l ++ w, g :: r = w ++ a :: b :: c :: y *)
    destruct w as [|g' w].
    + cbn [app] in E2. injection E2 as -> _. intros (Ha & _). congruence.
    + injection E2 as _ E2. now apply (Hr w a b c y).
Qed.

Lemma cubic_form_rotate g m h r : cubic_form (g :: m ++ h :: r) -> gptype g <> Move -> offcurve h = false ->
  cubic_form (h :: r ++ g :: m) /\ gptype h <> Move.
Proof.
  intros (g' & t & E & Hg & Ht & Hs) Hm Hh. injection E as <- <-.
  apply Forall_app in Ht as [Htm Htr]. inversion Htr as [|? ? Hht Htr']; subst.
  assert (gptype h = Line \/ gptype h = Curve) as Hh'.
  { destruct Hht as [X|X]; [|exact X]. unfold offcurve in Hh. rewrite X in Hh. discriminate. }
  split; [|destruct Hh'; congruence].
  exists h, (r ++ g :: m). split; [reflexivity|]. split; [tauto|]. split.
  - apply Forall_app. split; [assumption|]. constructor; [|assumption]. destruct Hg as [X|X]; [congruence|tauto].
  - change (g :: m ++ h :: r) with ((g :: m) ++ h :: r) in Hs. apply short_app in Hs as [H1 H2].
    change (h :: r ++ g :: m) with ((h :: r) ++ g :: m). apply short_join; [now apply on_not_off|exact H2|].
    change (g :: m) with ([g] ++ m) in H1. now apply short_app in H1.
Qed.

Lemma oncurves_app a b : oncurves (a ++ b) = oncurves a ++ oncurves b.
Proof. apply filter_app. Qed.

Lemma read_rotated L g m h r : cubic_form (g :: m ++ h :: r) -> gptype g <> Move -> offcurve h = false ->
  exists c1 c2, contour_of_glif (PD := PD) L (g :: m ++ h :: r) = Ok (c1 ++ c2) /\
    contour_of_glif L (h :: r ++ g :: m) = Ok (c2 ++ c1) /\ length c1 = length (oncurves (g :: m)).
Proof.
  intros Hf Hm Hh. destruct (cubic_form_rotate g m h r Hf Hm Hh) as [Hf' Hm'].
  assert (offcurve g = false) as Hgo.
  { destruct Hf as (g' & t & E & Hg & _). injection E as <- _. now apply on_not_off. }
  destruct (read_cubic (PD := PD) L _ Hf) as (c & E1 & S1 & D1 & G1); [congruence|].
  destruct (read_cubic (PD := PD) L _ Hf') as (c' & E2 & S2 & D2 & G2); [congruence|].
  destruct (ptype_eqb_spec (gptype g) Move); [congruence|]. destruct (ptype_eqb_spec (gptype h) Move); [congruence|].
  rewrite closed_listed_split in G1, G2 by assumption.
  assert (oncurves (g :: m ++ h :: r) = oncurves (g :: m) ++ oncurves (h :: r)) as O1.
  { change (g :: m ++ h :: r) with ((g :: m) ++ h :: r). apply oncurves_app. }
  assert (oncurves (h :: r ++ g :: m) = oncurves (h :: r) ++ oncurves (g :: m)) as O2.
  { change (h :: r ++ g :: m) with ((h :: r) ++ g :: m). apply oncurves_app. }
  rewrite O1, map_app in S1. rewrite O2, map_app in S2.
  assert (exists c1 c2, c = c1 ++ c2 /\ map shown c1 = map listed (oncurves (g :: m)) /\ map shown c2 = map listed (oncurves (h :: r))) as (c1 & c2 & -> & A1 & A2).
  { apply map_eq_app in S1 as (c1 & c2 & -> & A1 & A2). eauto. }
  assert (exists p l, c1 = p :: l) as (p & l & ->).
  { destruct c1; [|eauto]. cbn [oncurves filter] in A1. rewrite Hgo in A1. discriminate. }
  assert (exists q s, c2 = q :: s) as (q & s & ->).
  { destruct c2; [|eauto]. cbn [oncurves filter] in A2. rewrite Hh in A2. discriminate. }
  exists (p :: l), (q :: s). split; [exact E1|]. split.
  - rewrite E2. f_equal. apply closed_determined.
    + now rewrite S2, map_app, A1, A2.
    + rewrite G2. cbn [app] in G1 |- *. rewrite closed_segments_split in G1 |- *.
      assert (length (segs_from p (l ++ [q])) = length (walk g [] (m ++ [h]))) as HL.
      { rewrite segs_length, walk_length, app_length, oncurves_app, app_length. cbn [oncurves filter length]. rewrite Hh. cbn [negb length].
        apply (f_equal (@length _)) in A1. rewrite !map_length in A1. cbn [oncurves filter length] in A1. rewrite Hgo in A1. cbn [negb length] in A1.
        unfold oncurves. lia. }
      assert (forall A (x x' y y' : list A), length x = length x' -> x ++ y = x' ++ y' -> x = x' /\ y = y') as Happ.
      { clear. induction x as [|a x IH]; intros [|a' x'] y y' HL E; try discriminate; [auto|]. injection E as <- E.
        destruct (IH x' y y') as [-> ->]; [now injection HL|assumption|auto]. }
      destruct (Happ _ _ _ _ _ HL G1) as [B1 B2]. now rewrite B1, B2.
    + apply Forall_app in D1 as [D1 D1'].
      assert (forall l : list (point PD), Forall (fun p => pdata p = None) l -> map pdata l = map (fun _ => None) l) as HN.
      { intros k Hk. apply map_ext_in. intros a Ha. rewrite Forall_forall in Hk. auto. }
      rewrite (HN _ D2), (HN ((q :: s) ++ p :: l)) by (apply Forall_app; auto).
      apply (f_equal (@length _)) in S2. rewrite app_length, !map_length in S2.
      apply (f_equal (@length _)) in A1. apply (f_equal (@length _)) in A2. rewrite !map_length in A1, A2.
      assert (length c' = length ((q :: s) ++ p :: l)) as HLc by (rewrite app_length; lia).
      clear - HLc. revert HLc. generalize ((q :: s) ++ p :: l). induction c' as [|a c' IH]; intros [|b k] HLc; try discriminate; [reflexivity|].
      cbn [map]. f_equal. apply IH. now injection HLc.
  - apply (f_equal (@length _)) in A1. now rewrite !map_length in A1.
Qed.

(** Quadratic contours. *)
Lemma with_implied_join hf : forall m (g : glifpoint) h r, offcurve (last m g) = false ->
  with_implied (PD := PD) hf ((g :: m) ++ h :: r) = with_implied hf (g :: m) ++ with_implied hf (h :: r).
Proof.
  induction m as [|x m IH]; intros g h r Hz.
  - cbn [last] in Hz. cbn [app]. rewrite with_implied_2, Hz. reflexivity.
  - assert (offcurve (last m x) = false) as Hz' by (now rewrite last_cons in Hz).
    cbn [app] in *. rewrite !with_implied_2, (IH x h r Hz'). destruct (offcurve g), (offcurve x); reflexivity.
Qed.
End Start.

Lemma last_In_cons {A} : forall (l : list A) x, In (last l x) (x :: l).
Proof. induction l as [|y l IH]; intros x; [now left|]. rewrite last_cons. right. apply IH. Qed.

(** The point between two adjacent control points. *)
Lemma implied_split {PD} hf g h r : offcurve g = true -> offcurve h = true -> forall l,
  exists c1 c2, with_implied (PD := PD) hf (l ++ g :: h :: r) = c1 ++ copied g :: hf g h :: copied h :: c2.
Proof.
  intros Hg Hh. induction l as [|x l (c1 & c2 & E)].
  - cbn [app]. rewrite with_implied_2, Hg, Hh. destruct (with_implied_ne (PD := PD) hf h r) as [w ->]. now exists [], w.
  - destruct (l ++ g :: h :: r) as [|y t] eqn:El; [destruct l; discriminate|]. cbn [app]. rewrite El, with_implied_2, E.
    destruct (offcurve x); [destruct (offcurve y)|].
    + now exists (copied x :: hf x y :: c1), c2.
    + now exists (copied x :: c1), c2.
    + now exists (copied x :: c1), c2.
Qed.
Lemma implied_between {PD} L l g h r : gptype g = OffCurve -> gptype h = OffCurve ->
  exists c1 c2, quadratic_contour (PD := PD) L (l ++ g :: h :: r) = c1 ++ copied g :: half L g h :: copied h :: c2.
Proof.
  intros Hg Hh. assert (offcurve g = true) as Og by (unfold offcurve; now rewrite Hg). assert (offcurve h = true) as Oh by (unfold offcurve; now rewrite Hh).
  destruct (implied_split (PD := PD) (half L) g h r Og Oh l) as (c1 & c2 & E).
  destruct (l ++ g :: h :: r) as [|a t] eqn:El; [destruct l; discriminate|].
  destruct t as [|b t]; [destruct l as [|? [|]]; discriminate|].
  rewrite (quadratic_direct L a (b :: t) _ eq_refl), E, <- app_assoc. eexists c1, _. reflexivity.
Qed.
