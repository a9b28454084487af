(** Theorems added because a wrong program got past the others. *)
Require Import Coq.Strings.String Coq.Lists.List Coq.NArith.NArith Coq.ZArith.ZArith Coq.Arith.Arith Coq.Bool.Bool Coq.Floats.SpecFloat Coq.micromega.Lia.
Require Import Verif.Model.Base Verif.Model.Text Verif.Model.Float Verif.Model.Num Verif.Model.RustNum Verif.Model.Point
  Verif.Model.Contour Verif.Model.Penops Verif.Model.Mpoint Verif.Model.Mfek
  Verif.Spec.MfekSpec Verif.Spec.TightSpec Verif.Facts.MfekFacts Verif.Facts.ContourFacts Verif.Facts.KurboFacts Verif.Props.PropsMfek.
Import ListNotations.
Local Open Scope nat_scope.

(** C47: what is left behind whatever the outcome: nothing but operations changes, and these
    are put in until the numbers do not agree. *)
Theorem C47_glyph_left_behind : forall (PD H : Type) (m : mglif PD H) (l : list (list (option (operations (mcontour PD))))),
  let m' := snd (glif_upgrade_ops m l) in
  mg_with_layers m' [] = mg_with_layers m [] /\
  map (fun y => l_with_outline y []) (mg_layers m') = map (fun y => l_with_outline y []) (mg_layers m) /\
  map (fun y => map mc_inner (l_outline y)) (mg_layers m') = map (fun y => map mc_inner (l_outline y)) (mg_layers m) /\
  glif_downgrade_ops m' = put_ops (glif_downgrade_ops m) l.
Proof.
  intros PD H m l m'. unfold m', glif_upgrade_ops, glif_downgrade_ops.
  assert (forall ls k, let ls' := snd (layers_upgrade_ops ls k) in
    map (fun y : layer PD => l_with_outline y []) ls' = map (fun y => l_with_outline y []) ls /\
    map (fun y => map mc_inner (l_outline y)) ls' = map (fun y => map mc_inner (l_outline y)) ls /\
    map (fun y => downgrade_ops (l_outline y)) ls' = put_ops (map (fun y => downgrade_ops (l_outline y)) ls) k) as G.
  { induction ls as [|y ls IH]; intros [|x k]; cbn [layers_upgrade_ops map put_ops]; try (cbn; auto; fail).
    assert (length (downgrade_ops (l_outline y)) = length (l_outline y)) as -> by apply map_length.
    destruct (Nat.eqb_spec (length x) (length (l_outline y))) as [E|E].
    - destruct (upgrade_ops_ok (l_outline y) x E) as (o' & -> & E1 & E2). destruct (IH k) as (A & B & C). destruct (layers_upgrade_ops ls k) as [r ls''].
      cbn [snd map] in *. rewrite A, B, C. cbn. rewrite E1. unfold downgrade_ops at 1. rewrite E2. auto.
    - destruct (Nat.lt_ge_cases (length x) (length (l_outline y))) as [Lt|Ge].
      + destruct (upgrade_ops_short (l_outline y) x Lt) as (o' & -> & E1 & E2). cbn [snd map l_outline l_with_outline]. rewrite E1. split; [reflexivity|]. split; [reflexivity|].
        f_equal. unfold downgrade_ops. rewrite E2, firstn_all2 by lia. reflexivity.
      + destruct (upgrade_ops_long (l_outline y) x) as (o' & -> & E1 & E2); [lia|]. cbn [snd map l_outline l_with_outline]. rewrite E1. split; [reflexivity|]. split; [reflexivity|].
        f_equal. unfold downgrade_ops. rewrite E2, (skipn_all2 (n := length x)) by (rewrite map_length; lia). now rewrite app_nil_r. }
  specialize (G (mg_layers m) l). destruct (layers_upgrade_ops (mg_layers m) l) as [r ls]. cbn [snd] in *. split; [reflexivity|]. exact G.
Qed.
Print Assumptions C47_glyph_left_behind.

(** Three layers; the list for the second is too short. *)
Example C47_left_case : forall a b c d e : nat,
  put_ops [[1; 2]; [3; 4]; [5]] [[a; b]; [c]; [d]] = [[a; b]; [c; 4]; [5]] /\ put_ops [[1]] [[a; b]; [e]] = [[a]].
Proof. split; reflexivity. Qed.

(** C85: an operation is valid exactly if its points are good, its control points are off the
    curve and its end has a fitting type. *)
Theorem C85_valid_exact : forall o : penop,
  penop_is_valid o = true <->
  (forall g, In g (penop_points o) -> good_point g) /\
  (forall g, In g (removelast (penop_points o)) -> gptype g = OffCurve) /\ end_type_ok o.
Proof.
  assert (forall a b, ptype_eqb a b = true <-> a = b) as T by (intros [] []; cbn; split; congruence).
  assert (forall g, gp_is_valid g = true <-> good_point g) as G.
  { intros g. unfold gp_is_valid, good_point. rewrite !andb_true_iff, !negb_true_iff.
    assert (forall i, match i with IFloat f => is_subnormal f || is_nan f | IInt _ => false end = false <-> regular_float i) as R.
    { intros []; cbn [regular_float]; try rewrite orb_false_iff; tauto. }
    rewrite !R. rewrite <- not_true_iff_false, T. tauto. }
  assert (forall a b, negb (ptype_eqb a b) = true <-> a <> b) as T' by (intros a b; rewrite negb_true_iff, <- not_true_iff_false, T; tauto).
  intros [p|p|a p|a b p|]; cbn [penop_is_valid penop_points removelast end_type_ok In]; rewrite ?andb_true_iff, ?T, ?T', ?G; cbn [In]; split.
  1, 3, 5, 7, 9: intros H; split; [|split]; try exact I; try tauto; intros g Hg; destruct Hg as [<-|[<-|[<-|[]]]] || destruct Hg as [<-|[<-|[]]] || destruct Hg as [<-|[]] || destruct Hg; tauto.
  all: intros (H1 & H2 & H3); repeat match goal with |- _ /\ _ => split end; auto 6.
Qed.
Print Assumptions C85_valid_exact.

Example C85_valid_case :
  let g t x := mkGP (IInt x) (IFloat (f32_of_Z 3)) false None t in
  penop_is_valid (QuadTo (g OffCurve 1%Z) (g QCurve 2%Z)) = true /\ penop_is_valid (LineTo (g Curve 2%Z)) = false.
Proof. split; reflexivity. Qed.

(** C37: the points made from the operations of one contour: one for each operation; if the last
    one meets the first, it is dropped and its incoming handle goes to the first. *)
Theorem C37_points_of_operations : forall (PD : Type) (first : penop) (rest : list penop),
  (forall o, In o (first :: rest) -> o <> Close /\ forall a p, o <> QuadTo a p) ->
  exists (c c' : contour PD), penops_to_contour (first :: rest) = Ok c' /\
    Forall2 (fun on p => makes (fst on) (snd on) p) (combine (first :: rest) (rest ++ [first])) c /\
    (meets c -> exists p m q, c = p :: m ++ [q] /\ c' = with_b p (pb q) :: m) /\ (~ meets c -> c' = c).
Proof.
  intros PD first rest H.
  assert (W : forall l, (forall o, In o l -> o <> Close /\ forall a p, o <> QuadTo a p) ->
    exists c, walk (PD := PD) first l = Ok c /\ Forall2 (fun on p => makes (fst on) (snd on) p) (combine l (tl l ++ [first])) c).
  { induction l as [|o l IH]; intros Hl; [exists []; split; [reflexivity|constructor]|].
    destruct IH as (c & E & F); [intros; apply Hl; now right|]. destruct (Hl o (or_introl eq_refl)) as [Ho1 Ho2].
    assert (exists p, outline_point (PD := PD) o (penop_points o) (penop_points (hd first l)) = Ok [p] /\ makes o (hd first l) p) as (p & Ep & Mp).
    { generalize (hd first l). intros n. destruct o as [p|p|a p|a b p|]; try (exfalso; (now apply Ho1) || (now apply (Ho2 a p))).
      - eexists. split; [reflexivity|constructor].
      - destruct n; eexists; (split; [reflexivity|constructor; discriminate]).
      - destruct n; eexists; (split; [reflexivity|constructor; discriminate]). }
    exists (p :: c). cbn [walk]. rewrite Ep. cbn [bind]. rewrite E. split; [reflexivity|]. cbn [tl].
    destruct l as [|o' l]; cbn [app combine hd tl] in *; constructor; assumption. }
  destruct (W (first :: rest) H) as (c & E & F). exists c, (merge_ends c). split; [|split; [exact F|]].
  - rewrite penops_to_contour_walk, E. reflexivity.
  - destruct c as [|p [|q c]].
    + split; [intros (p & m & q & A & _); discriminate|reflexivity].
    + split; [intros (p' & m & q & A & _); destruct m; discriminate|reflexivity].
    + destruct (exists_last (l := q :: c) ltac:(discriminate)) as (m & z & Em). unfold merge_ends.
      change (rev (p :: q :: c)) with (rev (q :: c) ++ [p]). rewrite Em, rev_app_distr. cbn [rev app].
      change (p :: m ++ [z]) with ((p :: m) ++ [z]). rewrite removelast_last. cbn [map_first].
      destruct (feq (px z) (px p)) eqn:E1; destruct (feq (py z) (py p)) eqn:E2; cbn [andb]; split.
      1: intros _; exists p, m, z; split; reflexivity.
      1: intros N; exfalso; apply N; exists p, m, z; repeat split; assumption.
      all: try (intros _; reflexivity).
      all: intros (p' & m' & z' & A & B1 & B2); injection A as A1 A2; apply app_inj_tail in A2 as [_ A2]; subst; congruence.
Qed.
Print Assumptions C37_points_of_operations.
Example C37_points_case : let g x y := mkGP (IInt x) (IInt y) false None OffCurve in
  exists c, penops_to_contour (PD := unit) [MoveTo (g 0 0)%Z; LineTo (g 4 0)%Z; CurveTo (g 4 4)%Z (g 3 3)%Z (g 5 1)%Z; LineTo (g 0 0)%Z] = Ok c /\
    map pptype c = [Move; Curve; Curve] /\ map pa c = [Colocated; place (g 5 1)%Z; Colocated].
Proof. eexists. split; [vm_compute; reflexivity|]. split; reflexivity. Qed.
