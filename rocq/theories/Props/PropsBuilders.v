(** Properties C77-C80: direct calls of the contour builders, the starting point of a contour,
    guideline and point builders, conversions between points and handles. *)
Require Import Coq.Strings.String Coq.Lists.List Coq.Arith.Arith Coq.ZArith.ZArith Coq.micromega.Lia Coq.Floats.SpecFloat.
Require Import Verif.Model.Base Verif.Model.Text Verif.Model.Float Verif.Model.Num Verif.Model.RustNum Verif.Model.Point
  Verif.Model.Contour Verif.Model.Create Verif.Model.Color Verif.Model.Parts Verif.Model.Builders
  Verif.Spec.ContourSpec Verif.Spec.OutlineSpec Verif.Spec.BuildersSpec
  Verif.Facts.ContourFacts Verif.Facts.CreateFacts Verif.Facts.ConvFacts Verif.Facts.BuildersFacts.
Import ListNotations.
Local Open Scope nat_scope.

Definition gq (x y : Z) (t : ptype) : glifpoint := mkGP (IInt x) (IInt y) false None t.

(** C77: any list of two or more points, whatever its first point. *)
Theorem C77_quadratic_direct : forall (L : numlib) (PD : Type) (g h : glifpoint) (t : list glifpoint),
  quadratic_contour (PD := PD) L (g :: h :: t) =
  with_implied (half L) (g :: h :: t) ++
  (if offcurve (last (h :: t) g)
   then [with_ptype (closing L (last (h :: t) g) g) (if offcurve g then QCurve else QClose)] else []).
Proof. intros. now rewrite (quadratic_direct L g (h :: t) _ eq_refl). Qed.
Print Assumptions C77_quadratic_direct.

(** C77: a lone control point gives nothing, a lone point of another type is kept. *)
Theorem C77_quadratic_single : forall (L : numlib) (PD : Type) (g : glifpoint),
  quadratic_contour (PD := PD) L [] = [] /\
  quadratic_contour (PD := PD) L [g] = if offcurve g then [] else [copied g].
Proof. intros. split; [reflexivity|]. now rewrite (quadratic_direct L g [] _ eq_refl). Qed.
Print Assumptions C77_quadratic_single.

(** C77: a contour made of control points only (as TrueType allows) comes out with a point on the
    curve after each control point, so that no control points are adjacent. *)
Theorem C77_all_controls : forall (L : numlib) (PD : Type) (gc : list glifpoint),
  2 <= length gc -> Forall (fun g => gptype g = OffCurve) gc ->
  map pptype (quadratic_contour (PD := PD) L gc) = flat_map (fun _ => [OffCurve; QCurve]) gc.
Proof.
  intros L PD [|g [|h t]] Hl Ha; [cbn in Hl; lia|cbn in Hl; lia|].
  assert (forall x, In x (g :: h :: t) -> offcurve x = true) as Ho.
  { intros x Hx. rewrite Forall_forall in Ha. unfold offcurve. now rewrite (Ha x Hx). }
  rewrite C77_quadratic_direct, (Ho g), (Ho (last (h :: t) g)); [|apply last_In_cons|now left].
  rewrite map_app. clear Hl. cbn [map with_ptype pptype]. revert g h Ha Ho. induction t as [|k t IH]; intros g h Ha Ho.
  - rewrite with_implied_2, (Ho g), (Ho h) by (cbn; auto). inversion_clear Ha as [|? ? H1 H2]. inversion_clear H2 as [|? ? H3 _].
    cbn. now rewrite H1, H3.
  - rewrite with_implied_2, (Ho g), (Ho h) by (cbn; auto). inversion_clear Ha as [|? ? H1 H2].
    cbn [map app flat_map]. unfold copied at 1, half at 1. cbn [pptype]. rewrite H1. do 2 f_equal.
    apply IH; [assumption|]. intros x Hx. apply Ho. now right.
Qed.
Print Assumptions C77_all_controls.

Example C77_case :
  map pptype (quadratic_contour (PD := unit) rust_num [gq 0 0 OffCurve; gq 10 0 OffCurve; gq 10 10 OffCurve]) =
    [OffCurve; QCurve; OffCurve; QCurve; OffCurve; QCurve] /\
  map px (quadratic_contour (PD := unit) rust_num [gq 0 0 OffCurve; gq 10 0 OffCurve; gq 10 10 OffCurve]) =
    map f32_of_Z [0; 5; 10; 10; 10; 5]%Z.
Proof. split; vm_compute; reflexivity. Qed.

(** C78: a closed contour of lines and curves listed from another of its points is the same
    contour starting at that point. *)
Theorem C78_start_cubic : forall (L : numlib) (PD : Type) g m h r,
  cubic_form (g :: m ++ h :: r) -> gptype g <> Move -> gptype h <> OffCurve ->
  exists c1 c2 : contour PD,
    contour_of_glif L (g :: m ++ h :: r) = Ok (c1 ++ c2) /\
    contour_of_glif L (h :: r ++ g :: m) = Ok (c2 ++ c1) /\
    length c1 = length (oncurves (g :: m)).
Proof. intros. apply read_rotated; auto. unfold offcurve. destruct (gptype h); congruence. Qed.
Print Assumptions C78_start_cubic.

(** C78, quadratic contours listed without a control point at either end. *)
Theorem C78_start_quadratic_partial : forall (L : numlib) (PD : Type) g m h r,
  gptype g = QCurve -> gptype h = QCurve -> gptype (last m g) <> OffCurve -> gptype (last r h) <> OffCurve ->
  exists c1 c2 : contour PD,
    contour_of_glif L (g :: m) = Ok c1 /\ contour_of_glif L (h :: r) = Ok c2 /\
    contour_of_glif L (g :: m ++ h :: r) = Ok (c1 ++ c2) /\
    contour_of_glif L (h :: r ++ g :: m) = Ok (c2 ++ c1).
Proof.
  intros L PD g m h r Hg Hh Hm Hr.
  assert (forall x, gptype x <> OffCurve -> offcurve x = false) as Ho by (intros x Hx; unfold offcurve; destruct (gptype x); congruence).
  assert (forall a l b k, last (l ++ b :: k) a = last k b :> glifpoint) as Hlast.
  { clear. induction l as [|x l IH]; intros b k; cbn [app]; rewrite last_cons; [reflexivity|]. rewrite <- (IH b k).
    destruct (l ++ b :: k) eqn:E; [destruct l; discriminate|]. now rewrite !last_cons. }
  exists (with_implied (half L) (g :: m)), (with_implied (half L) (h :: r)).
  rewrite !(read_quadratic L g _ _ (or_introl Hg) eq_refl), !(read_quadratic L h _ _ (or_introl Hh) eq_refl), !Hlast.
  rewrite !(Ho _ Hm), !(Ho _ Hr), !app_nil_r.
  change (g :: m ++ h :: r) with ((g :: m) ++ h :: r). change (h :: r ++ g :: m) with ((h :: r) ++ g :: m).
  rewrite !with_implied_join by auto. auto.
Qed.
Print Assumptions C78_start_quadratic_partial.

(** C78 is false for quadratic contours ending in a control point: the extra closing point (C20)
    depends on where the list starts. *)
Theorem C78_start_quadratic_refuted : exists (g h a b : glifpoint),
  gptype g = QCurve /\ gptype h = QCurve /\ gptype a = OffCurve /\ gptype b = OffCurve /\
  forall c1 c2 : contour unit,
    contour_of_glif rust_num [g; a; h; b] = Ok (c1 ++ c2) ->
    contour_of_glif rust_num [h; b; g; a] <> Ok (c2 ++ c1).
Proof.
  exists (gq 0 0 QCurve), (gq 100 0 QCurve), (gq 50 60 OffCurve), (gq 50 40 OffCurve).
  do 4 (split; [reflexivity|]). intros c1 c2 H1 H2.
  assert (In (f32_of_Z 25) (map px (c1 ++ c2))) as Hin.
  { match type of H1 with ?a = _ => let v := eval vm_compute in a in change a with v in H1 end. injection H1 as <-.
    vm_compute. tauto. }
  assert (~ In (f32_of_Z 25) (map px (c2 ++ c1))) as Hout.
  { match type of H2 with ?a = _ => let v := eval vm_compute in a in change a with v in H2 end. injection H2 as <-.
    vm_compute. intuition discriminate. }
  apply Hout. rewrite map_app in *. apply in_app_iff. apply in_app_iff in Hin. tauto.
Qed.
Print Assumptions C78_start_quadratic_refuted.

Example C78_case :
  cubic_form (gq 0 0 Curve :: [gq 10 0 OffCurve; gq 20 0 OffCurve] ++ gq 30 0 Curve :: [gq 30 30 Line; gq 5 5 OffCurve; gq 1 1 OffCurve]).
Proof.
  do 2 eexists. split; [reflexivity|]. split; [right; now right|]. split.
  - repeat (apply Forall_cons; [cbn; auto|]). apply Forall_nil.
  - apply scan_short. reflexivity.
Qed.

(** C79: whatever the sequence of calls, the position and angle are those given at the start, and
    each other field is the one given last (absent, or default data, when never given). *)
Theorem C79_guideline_calls : forall (L : numlib) (PD : Type) (pd0 : PD) (x y : f32) (angle : iof) (cs : list (gl_call (PD := PD))),
  let g := gl_chain L pd0 x y angle cs in
  (gl_x g, gl_y g, gl_angle g) = (x, y, angle) /\
  gl_name g = last_given (fun c => match c with CallName s => Some s | _ => None end) cs /\
  gl_color g = last_given (fun c => match c with CallColor k => Some k | _ => None end) cs /\
  gl_identifier g = last_given (fun c => match c with CallIdentifier s => Some s | _ => None end) cs /\
  gl_data g = or_else (last_given (fun c => match c with CallData d => Some d | _ => None end) cs) pd0.
Proof.
  intros. unfold g, gl_chain. destruct (gl_fold cs (guideline_from_x_y_angle L pd0 x y angle)) as (-> & -> & -> & -> & -> & -> & ->).
  cbn [gl_name gl_color gl_identifier gl_data guideline_from_x_y_angle guideline_default gl_x gl_y gl_angle].
  repeat match goal with |- context [last_given ?f cs] => destruct (last_given f cs) end; repeat split.
Qed.
Print Assumptions C79_guideline_calls.

(** C79: the default guideline lies at the origin, with the default angle and nothing else given. *)
Theorem C79_guideline_default : forall (L : numlib) (PD : Type) (pd0 : PD),
  guideline_default L pd0 = gl_chain L pd0 (S754_zero false) (S754_zero false) (iof_default L) [].
Proof. reflexivity. Qed.
Print Assumptions C79_guideline_default.

(** C79: guideline data made for the editor is read back as given. *)
Theorem C79_guideline_data : forall a b c,
  as_guideline (new_guideline_data a b c) = mkInfo a b c /\
  forall d, exists a b c, d = new_guideline_data a b c.
Proof. intros. split; [reflexivity|]. intros [[a' b' c']]. now exists a', b', c'. Qed.
Print Assumptions C79_guideline_data.

Example C79_case : exists s1 s2,
  gl_name (gl_chain rust_num tt pos_zero pos_zero (IInt 90) [CallName s1; CallIdentifier s1; CallName s2]) = Some s2 /\ s1 <> s2.
Proof. exists (lit "a"), (lit "b"). split; [reflexivity|discriminate]. Qed.

(** C80: the constructors fill in what they are given and leave the rest unset; in debug builds
    they panic exactly for the type OffCurve, in release builds never. *)
Theorem C80_constructors : forall (PD : Type) (dbg : bool) (x y : f32) (a b : handle) (sm : bool) (t : ptype)
    (n : option str) (d : option PD) (r : res (point PD)),
  (r = from_x_y_type dbg x y t \/ r = from_x_y_a_b_type dbg x y a b t \/ r = from_fields dbg x y a b sm t n d) ->
  (r = Panic <-> dbg = true /\ t = OffCurve) /\ (forall e, r <> Err e) /\
  forall p, r = Ok p -> (px p, py p) = (x, y) /\ pptype p = t /\
    (r = from_x_y_type dbg x y t -> from_x_y_a_b_type dbg x y Colocated Colocated t = r) /\
    (r = from_x_y_a_b_type dbg x y a b t -> from_fields dbg x y a b false t None None = r) /\
    (r = from_fields dbg x y a b sm t n d -> pa p = a /\ pb p = b /\ psmooth p = sm /\ pname p = n /\ pdata p = d).
Proof.
  intros PD dbg x y a b sm t n d r H.
  unfold from_x_y_type, from_x_y_a_b_type, from_fields, check_ptype in *.
  destruct dbg; cbn [andb] in *; [destruct (ptype_eqb_spec t OffCurve) as [->|Ht]|].
  - cbn [bind] in *. assert (r = Panic) as -> by tauto. split; [tauto|]. split; [discriminate|discriminate].
  - cbn [bind] in *. split; [|split].
    + split; [|tauto]. destruct H as [->|[->| ->]]; discriminate.
    + destruct H as [->|[->| ->]]; discriminate.
    + intros p Hp. split; [|split; [|split; [|split]]].
      1, 2: destruct H as [->|[->| ->]]; injection Hp as <-; reflexivity.
      1, 2: intros ->; reflexivity.
      intros ->. injection Hp as <-. auto.
  - cbn [bind] in *. split; [|split].
    + split; [|intros [X _]; discriminate]. destruct H as [->|[->| ->]]; discriminate.
    + destruct H as [->|[->| ->]]; discriminate.
    + intros p Hp. split; [|split; [|split; [|split]]].
      1, 2: destruct H as [->|[->| ->]]; injection Hp as <-; reflexivity.
      1, 2: intros ->; reflexivity.
      intros ->. injection Hp as <-. auto.
Qed.
Print Assumptions C80_constructors.

(** C80: a point turned into a file point and back keeps its place, name, type and smoothness,
    and loses its handles and data, if its coordinates survive as file numbers. *)
Theorem C80_there_and_back : forall (L : numlib) (PD : Type) (p : point PD),
  f32_of_iof (iof_of_f32 L (px p)) = px p -> f32_of_iof (iof_of_f32 L (py p)) = py p ->
  let q : point PD := point_of_gp (gp_of_point L p) in
  shown q = shown p /\ pa q = Colocated /\ pb q = Colocated /\ pdata q = None.
Proof. intros L PD p Hx Hy q. unfold q, shown. cbn. rewrite Hx, Hy. auto. Qed.
Print Assumptions C80_there_and_back.

(** C80: a handle seen as a point is an off-curve point without handles, where the handle is (on
    the point itself when there is no such handle); taking it as the handle again changes nothing
    about where the handle is, and leaves the rest of the point alone. *)
Theorem C80_handle_as_point : forall (L : numlib) (PD : Type) (p : point PD) (w : which),
  (forall f, In f [px p; py p] \/ (exists g, In (At f g) [pa p; pb p] \/ In (At g f) [pa p; pb p]) ->
     f32_of_iof (iof_of_f32 L f) = f) ->
  handle_as_gpoint L p w = gp_from_handle L p w /\
  pptype (handle_as_point L p w) = OffCurve /\ pa (handle_as_point L p w) = Colocated /\ pb (handle_as_point L p w) = Colocated /\
  handle_of_point (handle_as_point L p w) = spot p (get_handle p w) /\
  forall w', spot p (get_handle (set_handle p w (handle_of_point (handle_as_point L p w))) w') = spot p (get_handle p w').
Proof.
  intros L PD p w H.
  assert (handle_of_point (handle_as_point L p w) = spot p (get_handle p w)) as Hs.
  { unfold handle_of_point, handle_as_point, handle_as_gpoint, spot, point_of_gp. destruct (get_handle p w) as [x y|] eqn:E; cbn.
    - assert (In (At x y) [pa p; pb p]) as Hin by (destruct w; cbn in E; [discriminate|rewrite <- E; cbn; auto|rewrite <- E; cbn; auto]).
      rewrite (H x), (H y); eauto.
    - rewrite (H (px p)), (H (py p)); cbn; auto. }
  split.
  { unfold handle_as_gpoint, gp_from_handle, handle_or_colocated. destruct (get_handle p w); reflexivity. }
  unfold handle_as_point at 1 2 3. split; [|split; [reflexivity|split; [reflexivity|]]].
  { unfold handle_as_gpoint. destruct (get_handle p w); reflexivity. }
  split; [exact Hs|]. intros w'. rewrite Hs. destruct w, w'; cbn; try reflexivity; unfold spot; [destruct (pa p)|destruct (pb p)]; reflexivity.
Qed.
Print Assumptions C80_handle_as_point.

(** C80: the ways of giving a handle agree. *)
Theorem C80_handle_from : forall (PD : Type) (p : point PD) (x y : f32) (t : ptype) (n : option str),
  handle_of_option None = handle_of_unit tt /\ handle_of_option (Some (x, y)) = handle_of_pair (x, y) /\
  handle_of_pair (px p, py p) = handle_of_point p /\
  (forall i j, handle_of_gp (Some (gp_name (gp_of_nums i j t) n)) = handle_of_pair (f32_of_iof i, f32_of_iof j)) /\
  (forall i j, let g := gp_name (gp_of_nums i j t) n in
     gx g = i /\ gy g = j /\ gptype g = t /\ gname g = n /\ gsmooth g = false /\ gname (gp_of_nums i j t) = None) /\
  handle_of_gp None = handle_of_unit tt /\
  (forall h, ptype_of_handle h = Curve <-> exists o, h = handle_of_pair o) /\
  (forall h, ptype_of_handle h = Line <-> h = handle_of_unit tt).
Proof.
  intros. repeat split; intros; try destruct h; cbn in *; try discriminate; eauto.
  - now exists (x0, y0).
  - destruct H as [o Ho]. discriminate.
Qed.
Print Assumptions C80_handle_from.

Example C80_case : let p : point unit := mkPoint (f32_of_Z 3) (f32_of_Z 4) (At (f32_of_Z 5) (f32_of_Z 6)) Colocated None Curve false None in
  (forall f, In f [px p; py p] \/ (exists g, In (At f g) [pa p; pb p] \/ In (At g f) [pa p; pb p]) ->
     f32_of_iof (iof_of_f32 rust_num f) = f) /\
  handle_of_point (handle_as_point rust_num p WA) = At (f32_of_Z 5) (f32_of_Z 6).
Proof. split; [intros f _; reflexivity|reflexivity]. Qed.
