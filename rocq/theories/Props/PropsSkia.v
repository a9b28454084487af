(** C52, C59, C60: Skia paths. *)
Require Import Coq.Lists.List Coq.Arith.Arith Coq.Bool.Bool Coq.ZArith.ZArith Coq.Floats.SpecFloat Coq.micromega.Lia.
Require Import Verif.Model.Base Verif.Model.Float Verif.Model.Num Verif.Model.Point Verif.Model.Contour
  Verif.Model.Kurbo Verif.Model.Mfek Verif.Model.Skia Verif.Spec.ContourSpec Verif.Spec.PathSpec Verif.Spec.SkiaSpec
  Verif.Facts.ContourFacts Verif.Facts.MfekFacts Verif.Facts.SkiaFacts.
Import ListNotations.
Local Open Scope nat_scope.

Definition sxy (x y : Z) : skpoint := (f32_of_Z x, f32_of_Z y).
Definition spt (x y : Z) (a b : handle) (t : ptype) : point unit := mkPoint (f32_of_Z x) (f32_of_Z y) a b None t false None.
Definition sat (x y : Z) : handle := At (f32_of_Z x) (f32_of_Z y).
(** A stand-in for Skia's conversion of conics: the control point twice, and its middle. *)
Definition flat_conic (p a q : skpoint) (w : f32) : skpoint * skpoint * skpoint * skpoint * skpoint := (p, a, a, a, q).
Lemma flat_conic_ends : keeps_ends flat_conic.
Proof. intros p a q w q0 q1 q2 q3 q4 H. injection H as <- _ _ _ <-. auto. Qed.
(** For the examples. *)
Ltac known :=
  repeat match goal with
  | |- Forall ?P ?l => let l' := eval vm_compute in l in change (Forall P l'); repeat (apply Forall_cons || apply Forall_nil)
  | |- proper_sub _ _ => split
  | |- proper_contour _ => unfold proper_contour
  | |- _ /\ _ => split
  end; vm_compute; repeat split; reflexivity.

(** * C52 *)

(** C52: the path starts at the first point, draws exactly the segments of the contour in order,
    and is closed exactly if the contour is; whatever the transformation of the coordinates. *)
Theorem C52_contour_drawn : forall (PD : Type) (tx ty : f32 -> f32) (c : contour PD) (p : point PD) (t : list (point PD)),
  c = p :: t -> drawable_contour c ->
  exists s, to_skia_path tx ty c = Some (verbs s) /\ no_conics s /\
    s_start s = (tx (px p), ty (py p)) /\
    (s_closed s = true <-> pptype p <> Move) /\
    draws s (map (sk_look tx ty) (segments c)).
Proof.
  intros PD tx ty c p t -> (p' & t' & E & Hp & Ht). injection E as <- <-. destruct (to_path tx ty p t Hp Ht) as (s & E1 & E2 & E3 & E4 & E5 & _).
  exists s. auto.
Qed.
Print Assumptions C52_contour_drawn.

(** C52: an empty contour has no path. *)
Theorem C52_none_exactly : forall (PD : Type) (tx ty : f32 -> f32) (c : contour PD), to_skia_path tx ty c = None <-> c = [].
Proof. intros PD tx ty [|p t]; cbn; split; congruence. Qed.
Print Assumptions C52_none_exactly.

(** C52: for an outline, the paths of its open contours are joined in order, and so are those of
    its closed ones; a path is missing exactly if there is no such contour.  It never panics. *)
Theorem C52_outline : forall (PD : Type) (tx ty : f32 -> f32) (o : outline PD),
  exists ps op cl, to_skia_paths tx ty o = Ok ps /\
    Forall2 (fun c s => to_skia_path tx ty c = Some s) (filter (fun c => match c with p :: _ => ptype_eqb (pptype p) Move | [] => false end) o) op /\
    Forall2 (fun c s => to_skia_path tx ty c = Some s) (filter (fun c => match c with p :: _ => negb (ptype_eqb (pptype p) Move) | [] => false end) o) cl /\
    sk_open ps = match op with [] => None | _ => Some (concat op) end /\
    sk_closed ps = match cl with [] => None | _ => Some (concat cl) end.
Proof.
  intros PD tx ty o. unfold to_skia_paths. rewrite paths_loop. cbn [bind app].
  assert (forall (f : contour PD -> bool) l, (forall c, f c = true -> c <> []) -> Forall2 (fun c s => to_skia_path tx ty c = Some s) (filter f l) (map (path_of tx ty) (filter f l))) as F.
  { intros f l Hf. induction l as [|c l IH]; cbn; [constructor|]. destruct (f c) eqn:E; [|exact IH]. cbn. constructor; [|exact IH].
    unfold path_of. specialize (Hf c E). destruct c; [congruence|reflexivity]. }
  set (fo := fun c : contour PD => match c with p :: _ => ptype_eqb (pptype p) Move | [] => false end).
  set (fc := fun c : contour PD => match c with p :: _ => negb (ptype_eqb (pptype p) Move) | [] => false end).
  assert (concat (map (path_of tx ty) (filter (fun c => negb (starts_open c)) o)) = concat (map (path_of tx ty) (filter fc o))) as Ec.
  { clear. induction o as [|[|p t] o IH]; cbn [filter starts_open negb map concat]; [reflexivity|exact IH|]. unfold fc at 1. destruct (ptype_eqb _ _); cbn [negb map concat]; congruence. }
  rewrite Ec. eexists _, (map (path_of tx ty) (filter fo o)), (map (path_of tx ty) (filter fc o)). split; [reflexivity|].
  split; [apply F; intros [|]; cbn; congruence|]. split; [apply F; intros [|]; cbn; congruence|].
  assert (forall l : list (contour PD), (forall c, In c l -> c <> []) ->
    (if 0 <? count_points (concat (map (path_of tx ty) l)) then Some (concat (map (path_of tx ty) l)) else None) = match map (path_of tx ty) l with [] => None | _ => Some (concat (map (path_of tx ty) l)) end) as G.
  { intros l Hl. destruct l as [|c l]; [reflexivity|]. assert ((0 <? count_points (concat (map (path_of tx ty) (c :: l)))) = true) as ->; [|reflexivity].
    apply count_paths. exists c. split; [now left|]. apply Hl. now left. }
  split; apply G; intros c Hc; apply filter_In in Hc as [_ Hc]; destruct c; cbn in Hc; congruence.
Qed.
Print Assumptions C52_outline.

(** C52: an MFEK outline gives the paths of its points, and panics exactly if one of its
    contours is not cubic. *)
Theorem C52_mfek_outline : forall (PD : Type) (tx ty : f32 -> f32) (o : moutline PD),
  (forall pts, Forall2 (fun c l => mc_inner c = Cubic l) o pts -> mfek_to_skia_paths tx ty o = to_skia_paths tx ty pts) /\
  ((exists c, In c o /\ forall l, mc_inner c <> Cubic l) -> mfek_to_skia_paths tx ty o = Panic).
Proof.
  intros PD tx ty o.
  assert (mfek_to_skia_paths tx ty o = bind (downgrade o) (to_skia_paths tx ty)) as E0; [|split].
  2: { intros pts F. apply downgrade_iff in F. now rewrite E0, F. }
  2: { intros (c & Hc & Hn). destruct (downgrade_total o) as [[q Hq]|[Hq _]]; [|now rewrite E0, Hq]. exfalso. clear E0.
       apply downgrade_iff in Hq. induction Hq as [|d l o p Hd Hq IH]; [destruct Hc|]. destruct Hc as [->|Hc]; [now apply (Hn l)|]. now apply IH. }
  unfold mfek_to_skia_paths, to_skia_paths.
  assert (forall op cl, mfek_skpaths_loop tx ty o op cl = bind (downgrade o) (fun p => skpaths_loop tx ty p op cl)) as E.
  { unfold downgrade. induction o as [|c o IH]; intros op cl; [reflexivity|]. cbn [mfek_skpaths_loop mapM]. destruct (mc_inner c) as [[|p t]|l|l b]; cbn [cubic_points bind]; try reflexivity.
    - rewrite IH. destruct (mapM _ o); reflexivity.
    - change (to_skia_path tx ty (p :: t)) with (Some (path_of tx ty (p :: t))). cbn iota. destruct (ptype_eqb (pptype p) Move) eqn:Em; rewrite IH; destruct (mapM _ o); cbn [bind]; try reflexivity;
        cbn [skpaths_loop]; change (to_skia_path tx ty (p :: t)) with (Some (path_of tx ty (p :: t))); cbn iota; rewrite Em; reflexivity. }
  rewrite E. destruct (downgrade o); reflexivity.
Qed.
Print Assumptions C52_mfek_outline.

Definition ex_closed_mixed : contour unit :=
  [spt 0 0 Colocated (sat (-5) 10) Curve; spt 100 0 Colocated Colocated Line; spt 50 80 (sat 20 90) Colocated QCurve].
Example C52_case : drawable_contour ex_closed_mixed /\
  to_skia_path (fun x => x) (fun y => y) ex_closed_mixed =
  Some (verbs (mkSub (sxy 0 0) [PLine (sxy 100 0); PQuad (sxy 100 0) (sxy 50 80); PCubic (sxy 20 90) (sxy (-5) 10) (sxy 0 0)] true)).
Proof.
  split; [|reflexivity]. eexists _, _. split; [reflexivity|]. split; [right; right; now left|].
  constructor; [now left|]. constructor; [right; now right|]. constructor.
Qed.

(** * C59 *)

(** C59: reading a path made of any number of subpaths, of any pieces, without NaNs.  It panics
    exactly if some closed subpath is a single curve.  Otherwise there is one contour per subpath
    that draws something (or is an inner lone MoveTo), open or closed as the subpath is, that
    draws the same curves - except that a closed subpath beginning with a line and ending with a
    curve gets a straight line in place of that curve.  Here "the same" means: quadratic curves
    and conics are converted to cubic ones, and a line may be a cubic curve with its control
    points on its ends. *)
Theorem C59_from_skia_exact : forall (PD : Type) conic (dbg : bool) (subs : list subpath),
  keeps_ends conic -> Forall (proper_sub conic) subs ->
  (Exists (lone_loop conic) subs /\ from_skia_path (PD := PD) conic dbg (concat (map verbs subs)) = Panic) \/
  (~ Exists (lone_loop conic) subs /\
   exists o : outline PD, from_skia_path conic dbg (concat (map verbs subs)) = Ok o /\
   Forall2 (fun s c =>
     (exists p t, c = p :: t /\ (pptype p = Move <-> s_closed s = false)) /\
     (~ line_then_curve conic s -> Forall2 same_curve (sub_strokes conic s) (strokes c)) /\
     (line_then_curve conic s -> exists l p a b q, sub_strokes conic s = l ++ [SCubic p a b q] /\
        Forall2 same_curve (l ++ [SLine p q]) (strokes c)))
     (kept_subs subs) o).
Proof. intros PD conic dbg subs Hk Hp. exact (from_all conic Hk (PD := PD) dbg subs Hp). Qed.
Print Assumptions C59_from_skia_exact.

(** C59 as one would want it is false: such a last curve is lost, and a lone loop panics. *)
Theorem C59_from_skia_refuted :
  (exists s (c : contour unit), proper_sub flat_conic s /\ from_skia_path flat_conic false (verbs s) = Ok [c] /\
     ~ Forall2 same_curve (sub_strokes flat_conic s) (strokes c)) /\
  (exists s, proper_sub flat_conic s /\ from_skia_path (PD := unit) flat_conic false (verbs s) = Panic).
Proof.
  split.
  - exists (mkSub (sxy 0 0) [PLine (sxy 100 0); PCubic (sxy 90 50) (sxy 10 50) (sxy 0 0)] true). eexists.
    split; [known|]. split; [vm_compute; reflexivity|].
    intros H. inversion H as [|? ? ? ? H1 H2]; subst. inversion H2 as [|? ? ? ? H3 H4]; subst. destruct H3 as (_ & [H3 _] & _). vm_compute in H3. discriminate.
  - exists (mkSub (sxy 0 0) [PCubic (sxy 90 50) (sxy 10 50) (sxy 0 0)] true).
    split; [known|]. vm_compute. reflexivity.
Qed.
Print Assumptions C59_from_skia_refuted.

Definition ex_subs : list subpath :=
  [mkSub (sxy 0 0) [PCubic (sxy 10 0) (sxy 90 10) (sxy 100 0); PLine (sxy 50 80)] true;
   mkSub (sxy 1 1) [PLine (sxy 2 2); PQuad (sxy 3 3) (sxy 4 4); PConic (sxy 5 5) (sxy 6 6) (f32_of_Z 1)] false;
   mkSub (sxy 7 7) [] false; mkSub (sxy 8 8) [] true; mkSub (sxy 9 9) [] false].
Example C59_case : Forall (proper_sub flat_conic) ex_subs /\ ~ Exists (lone_loop flat_conic) ex_subs /\
  Forall (fun s => ~ line_then_curve flat_conic s) ex_subs /\
  exists o : outline unit, from_skia_path flat_conic true (concat (map verbs ex_subs)) = Ok o /\ map (@length _) o = [3; 5; 1].
Proof.
  split; [known|]. split.
  { intros H. repeat (match goal with H : Exists _ _ |- _ => inversion H as [? ? H1|? ? H1]; clear H; subst end; [destruct H1 as (E & p & a & b & q & H1); try discriminate E; vm_compute in H1; discriminate|rename H1 into H]). inversion H. }
  split.
  { repeat constructor; intros (E & p & q & l & p' & a & b & q' & H); try discriminate E; vm_compute in H; try discriminate. }
  eexists. split; [vm_compute; reflexivity|reflexivity].
Qed.

(** * C60 *)

(** C60: a contour made into a path and read back draws the same curves, unless it is closed,
    begins with a line and ends with a curve. *)
Theorem C60_there_and_back : forall (PD : Type) conic (dbg : bool) (c : contour PD),
  keeps_ends conic -> drawable_contour c -> 2 <= length c -> proper_contour c -> ~ idle_end c ->
  exists path (c' : contour PD), to_skia_path (fun x => x) (fun y => y) c = Some path /\ from_skia_path conic dbg path = Ok [c'] /\
    (forall p t p' t', c = p :: t -> c' = p' :: t' -> (pptype p' = Move <-> pptype p = Move)) /\
    (~ line_first_curve_last c -> Forall2 same_curve (strokes c) (strokes c')) /\
    (line_first_curve_last c -> exists l s, strokes c = l ++ [s] /\ ~ is_line s /\
       Forall2 same_curve (l ++ [SLine (stroke_from s) (stroke_to s)]) (strokes c')).
Proof.
  intros PD conic dbg c Hk Hd Hl Hp Hi. pose proof Hd as (p & t & Ec & Hp0 & Ht).
  destruct (C52_contour_drawn PD (fun x => x) (fun y => y) c p t Ec Hd) as (s & E1 & E2 & E3 & E4 & E5).
  assert (s_closed s = true <-> closed_contour c) as Hcl.
  { rewrite E4. unfold closed_contour. split; [intros H p' t' E; rewrite Ec in E; injection E as <- _; exact H|intros H; now apply (H p t)]. }
  exists (verbs s).
  destruct (round conic Hk dbg c s Hl Hp Hi E1 E2 E5 (proj1 Hcl)) as [[L _]|(L & E & c' & Ef & (G1 & G2 & G3))].
  - exfalso. revert L. 
    assert (sub_strokes conic s = map cubified (strokes c)) as Es.
    { unfold sub_strokes. rewrite (of_pieces_plain conic _ E2). unfold draws in E5. destruct (s_closed s) eqn:Ecl.
      - destruct E5 as [[E5 E6]|E6].
        + unfold strokes. rewrite E6. rewrite E5. rewrite (sk_eqb_refl (s_start s)); [now rewrite app_nil_r|].
          destruct c as [|p0 [|q0 t0]]; cbn in Hl; try lia. unfold proper_contour in Hp. unfold strokes in Hp. rewrite E6 in Hp.
          destruct (plain_facts _ E2 (s_start s)) as (F1 & F2 & F3).
          destruct (plain (s_start s) (s_pieces s)) as [|x r] eqn:Epl; [exfalso; apply (strokes_ne p0 q0 t0); exact E6|].
          rewrite <- (F2 _ _ eq_refl). cbn in Hp. inversion Hp as [|? ? H1 H2]; subst. now apply proper_ends.
        + unfold strokes. rewrite E6, map_app. destruct (sk_eqb (s_end s) (s_start s)) eqn:Eq; [|reflexivity].
          exfalso. apply Hi. split; [now apply Hcl|]. exists (plain (s_start s) (s_pieces s)), (s_end s), (s_start s). split; [exact E6|]. apply andb_true_iff in Eq. exact Eq.
      - unfold strokes. rewrite E5. now rewrite app_nil_r. }
    exact (proj2 (bad_iff conic c s Hd Hl Hcl Es)).
  - destruct (bad_iff conic c s Hd Hl Hcl E) as [B _]. exists c'. split; [exact E1|]. split; [exact Ef|]. split.
    + intros p1 t1 p' t' Ec1 Ec'. destruct G1 as (p2 & t2 & Ep2 & G1). rewrite Ec' in Ep2. injection Ep2 as <- _. rewrite Ec in Ec1. injection Ec1 as <- _.
      rewrite G1. destruct (s_closed s); [split; [discriminate|intros H; exfalso; now apply (proj1 E4)]|]. split; [|reflexivity]. intros _.
      destruct (pptype p) eqn:Ep; try reflexivity; exfalso; discriminate (proj2 E4 ltac:(discriminate)).
    + split.
      * intros N. apply same_cubified. rewrite <- E. apply G2. now rewrite B.
      * intros N. apply B in N. destruct (G3 N) as (l & p1 & a & b & q & El & F). rewrite E in El.
        destruct (exists_last (l := strokes c)) as (l' & x & Ex).
        { intros E0. rewrite E0 in El. destruct l; discriminate. }
        rewrite Ex, map_app in El. cbn in El. apply app_inj_tail in El as [El1 El2].
        exists l', x. split; [exact Ex|]. split; [destruct x; cbn; try tauto; discriminate|].
        apply same_cubified. rewrite map_app, El1. cbn [map cubified]. destruct x as [| |]; cbn in El2; try discriminate; injection El2 as -> _ _ ->; exact F.
Qed.
Print Assumptions C60_there_and_back.

(** C60 in full, for contours of any length: what comes back is what the contour draws without an
    idle line at its end.  Nothing, if that is nothing; a panic, if the contour is closed and that
    is a single curve; else one contour, closed if the first is, that draws it -- except that the
    last curve becomes a line if the contour is closed and begins with a line. *)
Theorem C60_exact : forall (PD : Type) conic (dbg : bool) (c : contour PD) (l : list stroke),
  keeps_ends conic -> drawable_contour c -> proper_contour c -> busy_strokes c l ->
  exists path, to_skia_path (fun x => x) (fun y => y) c = Some path /\
    (l = [] -> from_skia_path (PD := PD) conic dbg path = Ok []) /\
    (closed_contour c -> forall s, l = [s] -> ~ is_line s -> from_skia_path (PD := PD) conic dbg path = Panic) /\
    (l <> [] -> (closed_contour c -> forall s, l = [s] -> is_line s) ->
     exists p' t', from_skia_path (PD := PD) conic dbg path = Ok [p' :: t'] /\
       (pptype p' <> Move <-> closed_contour c) /\
       (~ (closed_contour c /\ line_to_curve l) -> Forall2 same_curve l (strokes (p' :: t'))) /\
       (closed_contour c -> line_to_curve l -> forall m s, l = m ++ [s] ->
          Forall2 same_curve (m ++ [SLine (stroke_from s) (stroke_to s)]) (strokes (p' :: t')))).
Proof.
  intros PD conic dbg c l Hk Hd Hp HB.
  assert (strokes c = [] \/ strokes c <> []) as [E0|Ns] by (destruct (strokes c); [now left|right; discriminate]).
  - assert (l = []) as -> by (destruct HB as [(_ & a & b & E)|[_ ->]]; [rewrite E0 in E; destruct l; discriminate|exact E0]).
    destruct Hd as (p & t & -> & Hp0 & Ht).
    assert (pptype p = Move /\ t = []) as [Hm ->].
    { unfold strokes, segments in E0. destruct t as [|q t]; [split; [|reflexivity]|]; destruct (pptype p); try reflexivity; discriminate. }
    eexists. split; [reflexivity|]. split; [|split; [discriminate|congruence]].
    intros _. cbn. unfold sk_closing. rewrite Hm. reflexivity.
  - destruct (busy_path conic c l Hd Hp Ns HB) as (s & E1 & Ps & Hcl & Es). exists (verbs s). split; [exact E1|].
    assert (verbs s = concat (map verbs [s])) as -> by (cbn [map concat]; now rewrite app_nil_r).
    pose proof (from_all conic Hk (PD := PD) dbg [s] ltac:(constructor; [exact Ps|constructor])) as FA.
    assert (forall x, is_line x \/ exists p a b q, cubified x = SCubic p a b q) as LC by (intros [p q|p a q|p a b q]; [left; exact I|right; do 4 eexists; reflexivity..]).
    assert (lone_loop conic s <-> closed_contour c /\ exists x, l = [x] /\ ~ is_line x) as LL.
    { unfold lone_loop. rewrite Hcl, Es. split; intros [H1 H2]; (split; [exact H1|]).
      - destruct H2 as (p & a & b & q & E). destruct l as [|x [|y r]]; try discriminate. exists x. split; [reflexivity|]. intros L. destruct x; try contradiction. discriminate.
      - destruct H2 as (x & -> & N). destruct (LC x) as [L|(p & a & b & q & E)]; [contradiction|]. exists p, a, b, q. cbn. now rewrite E. }
    destruct (sub_facts conic Hk s Ps) as (_ & _ & _ & M & _).
    split; [|split].
    + intros ->. destruct FA as [[L _]|(_ & o & Eo & G)].
      * exfalso. inversion L as [? ? H|? ? H]; [|inversion H]. subst. apply LL in H as (_ & x & E & _). discriminate.
      * rewrite Eo. assert (s_pieces s = []) as E2 by now apply M. cbn in G. rewrite E2 in G. destruct (s_closed s); inversion G; reflexivity.
    + intros Hc1 x -> N. destruct FA as [[_ E]|(L & _)]; [exact E|]. exfalso. apply L. constructor. apply LL. eauto.
    + intros Nl NL. destruct FA as [[L _]|(_ & o & Eo & G)].
      * exfalso. inversion L as [? ? H|? ? H]; [|inversion H]. subst. apply LL in H as (H1 & x & E & N). apply N. now apply NL.
      * assert (s_pieces s <> []) as Np by (intros E; apply M in E; rewrite Es in E; destruct l; [congruence|discriminate]).
        assert (kept_subs [s] = [s]) as K by (cbn; destruct (s_pieces s); [congruence|reflexivity]). rewrite K in G.
        inversion G as [|? c' ? o' G1 G2]; subst. inversion G2; subst. destruct G1 as ((p' & t' & -> & Q1) & Q2 & Q3).
        assert (line_then_curve conic s <-> closed_contour c /\ line_to_curve l) as LT.
        { unfold line_then_curve. rewrite Hcl, Es. split; intros [H1 H2]; (split; [exact H1|]).
          - destruct H2 as (p & q & m & u & a & b & v & E). destruct l as [|x r]; [discriminate|]. cbn [map] in E. injection E as Ex Er.
            destruct (exists_last (l := r)) as (r' & y & ->); [intros ->; destruct m; discriminate|]. rewrite map_app in Er. apply app_inj_tail in Er as [_ Ey].
            exists x, r', y. split; [reflexivity|]. split; [destruct x; try discriminate; exact I|]. intros L. destruct y; try contradiction; discriminate.
          - destruct H2 as (x & r & y & -> & L & N). destruct x as [p q| |]; try contradiction. destruct (LC y) as [L2|(u & a & b & v & E)]; [contradiction|].
            exists p, q, (map cubified r), u, a, b, v. cbn [map]. rewrite map_app. cbn [map]. now rewrite E. }
        exists p', t'. split; [exact Eo|]. split; [|split].
        -- rewrite <- Hcl, Q1. destruct (s_closed s); split; intros; congruence.
        -- intros N. apply same_cubified. rewrite <- Es. apply Q2. now rewrite LT.
        -- intros H1 H2 m x ->. destruct (Q3 (proj2 LT (conj H1 H2))) as (l' & p1 & a & b & q & El & F). rewrite Es, map_app in El. cbn in El.
           apply app_inj_tail in El as [El1 El2]. apply same_cubified. rewrite map_app, El1. cbn [map cubified].
           destruct x as [| |]; cbn in El2; try discriminate; injection El2 as -> _ _ ->; exact F.
Qed.
Print Assumptions C60_exact.

(** C60: the strokes meant there exist and are unique. *)
Theorem C60_busy_strokes : forall (PD : Type) (c : contour PD),
  exists l, busy_strokes c l /\ forall l', busy_strokes c l' -> l' = l.
Proof.
  intros PD c. destruct (busy_exists c) as (l & H). exists l. split; [exact H|]. intros l' H'.
  destruct H as [(I & a & b & E)|[N ->]], H' as [(I' & a' & b' & E')|[N' ->]]; try contradiction; [|reflexivity].
  rewrite E in E'. now apply app_inj_tail in E' as [-> _].
Qed.
Print Assumptions C60_busy_strokes.

(** A closed contour with an idle end after a curve comes back as a panic, one with two lines
    without it. *)
Example C60_idle_case :
  let c := [spt 0 0 (sat 10 20) Colocated Line; spt 0 0 Colocated (sat 30 10) Curve] in
  let d := [spt 0 0 Colocated Colocated Line; spt 50 0 Colocated Colocated Line; spt 0 0 Colocated Colocated Line] in
  idle_end c /\ proper_contour c /\ (exists s, busy_strokes c [s] /\ ~ is_line s) /\
  idle_end d /\ proper_contour d /\ exists s t, busy_strokes d [s; t].
Proof.
  cbv zeta.
  match goal with |- idle_end ?c /\ _ => assert (idle_end c) as I1 end.
  { split; [intros p t E; injection E as <- _; discriminate|]. eexists [_], _, _. split; [reflexivity|]. now vm_compute. }
  match goal with |- _ /\ _ /\ _ /\ idle_end ?d /\ _ => assert (idle_end d) as I2 end.
  { split; [intros p t E; injection E as <- _; discriminate|]. eexists [_; _], _, _. split; [reflexivity|]. now vm_compute. }
  split; [exact I1|]. split; [known|]. split; [eexists; split; [left; split; [exact I1|do 2 eexists; reflexivity]|cbn; tauto]|].
  split; [exact I2|]. split; [known|]. do 2 eexists. left. split; [exact I2|do 2 eexists; reflexivity].
Qed.

(** C60 as stated is false. *)
Theorem C60_there_and_back_refuted : exists (c c' : contour unit) path,
  drawable_contour c /\ 2 <= length c /\ proper_contour c /\ ~ idle_end c /\
  to_skia_path (fun x => x) (fun y => y) c = Some path /\ from_skia_path flat_conic false path = Ok [c'] /\
  ~ Forall2 same_curve (strokes c) (strokes c').
Proof.
  exists [spt 0 0 Colocated (sat 10 50) Curve; spt 100 0 (sat 90 50) Colocated Line]. do 2 eexists.
  split; [eexists _, _; split; [reflexivity|]; split; [right; right; now left|repeat constructor]|].
  split; [cbn; lia|]. split; [known|]. split.
  { intros (_ & l & p & q & E & _). vm_compute in E. destruct l as [|x [|y [|z l]]]; discriminate. }
  split; [reflexivity|]. split; [vm_compute; reflexivity|].
  intros H. inversion H as [|? ? ? ? H1 H2]; subst. inversion H2 as [|? ? ? ? H3 H4]; subst. destruct H3 as (_ & [H3 _] & _). vm_compute in H3. discriminate.
Qed.
Print Assumptions C60_there_and_back_refuted.

(** C60: a closed contour of a single curve panics on the way back. *)
Theorem C60_single_point_refuted : forall (PD : Type) conic (dbg : bool) (p : point PD),
  keeps_ends conic -> proper_contour [p] -> pptype p = Curve ->
  exists path, to_skia_path (fun x => x) (fun y => y) [p] = Some path /\ from_skia_path (PD := PD) conic dbg path = Panic.
Proof.
  intros PD conic dbg p Hk Hp Ht. set (s := mkSub (sk_at (fun x => x) (fun y => y) p) [PCubic (sk_handle (fun x => x) (fun y => y) p WA) (sk_handle (fun x => x) (fun y => y) p WB) (sk_at (fun x => x) (fun y => y) p)] true).
  exists (verbs s). split; [cbn; unfold sk_closing; rewrite Ht; reflexivity|].
  unfold proper_contour, strokes, segments in Hp. rewrite Ht in Hp. cbn [closed_segments app segs_from map] in Hp. inversion_clear Hp as [|? ? H1 _].
  unfold sk_look, seg_between in H1. cbn [sg_kind pptype] in H1. rewrite Ht in H1. cbn [cubified proper_stroke] in H1. destruct H1 as (Q1 & Q2 & Q3 & Q4).
  assert (proper_sub conic s) as Ps.
  { split; [exact Q1|]. split; [exact Q1|]. unfold sub_strokes. cbn [s of_pieces s_start s_pieces of_piece app s_closed]. unfold s_end. cbn [s s_pieces map last piece_to s_start].
    rewrite sk_eqb_refl by exact Q1. cbn. constructor; [|constructor]. cbn. split; [exact Q1|]. unfold sk_handle, handle_or_colocated, get_handle. unfold handle_at in *. cbn in *.
    split; [destruct (pa p); exact Q2|]. split; [destruct (pb p); exact Q3|exact Q1]. }
  assert (lone_loop conic s) as L.
  { split; [reflexivity|]. unfold sub_strokes, s_end. cbn [s of_pieces s_start s_pieces of_piece app s_closed map last piece_to]. rewrite sk_eqb_refl by exact Q1. do 4 eexists. reflexivity. }
  assert (verbs s = concat (map verbs [s])) as -> by reflexivity.
  destruct (from_all conic Hk (PD := PD) dbg [s]) as [[_ E]|(N & _)]; [constructor; [exact Ps|constructor]|exact E|].
  exfalso. apply N. now constructor.
Qed.
Print Assumptions C60_single_point_refuted.

Example C60_case :
  let c := [spt 0 0 (sat 10 0) Colocated Line; spt 100 0 Colocated (sat 90 10) Curve; spt 50 80 Colocated Colocated Line] in
  drawable_contour c /\ proper_contour c /\ ~ idle_end c /\ ~ line_first_curve_last c.
Proof.
  cbv zeta. split; [eexists _, _; split; [reflexivity|]; split; [right; now left|]; constructor; [right; now left|constructor; [now left|constructor]]|].
  split; [known|]. split.
  - intros (_ & l & p & q & E & S & _). vm_compute in E. destruct l as [|x [|y [|z l]]]; try discriminate. injection E as _ _ <- <-. vm_compute in S. discriminate.
    destruct l; discriminate.
  - intros (p & q & t & E & H & _). injection E as _ <- _. discriminate.
Qed.
