(** C46 to C51, C54 to C58: MFEK points, contours, outlines, layers and glyphs. *)
Require Import Coq.Strings.String Coq.Lists.List Coq.NArith.NArith Coq.ZArith.ZArith Coq.Arith.Arith Coq.QArith.QArith Coq.Floats.SpecFloat Coq.micromega.Lia.
Require Verif.Facts.CreateFacts.
Require Import Verif.Model.Base Verif.Model.Text Verif.Model.Float Verif.Model.Num Verif.Model.Point
  Verif.Model.Contour Verif.Model.Names Verif.Model.Color Verif.Model.Parts Verif.Model.Component
  Verif.Model.Mpoint Verif.Model.Mfek
  Verif.Spec.TextSpec Verif.Spec.MfekSpec Verif.Facts.NamesFacts Verif.Facts.ExactFacts Verif.Facts.ValueFacts Verif.Facts.MfekFacts.
Import ListNotations.
Local Open Scope nat_scope.

(** * C46 Glyph to MFEK glyph and back *)

(** What comes back for every glyph: the outline is always present and the lib is lost. *)
Theorem C46_there_and_back : forall (PD PL H : Type) (g : glif PD PL),
  glif_of_mglif (PL := PL) (mglif_of_glif g : mglif PD H) =
  Ok (mkGlif (Some (match g_outline g with Some o => o | None => [] end)) (g_anchors g) (g_components g)
             (g_guidelines g) (g_images g) (g_width g) (g_unicode g) (g_name g) (g_note g) (g_filename g) LNone).
Proof.
  intros. unfold glif_of_mglif, mglif_of_glif. cbn [mg_layers idx nth_error bind l_outline]. rewrite mapM_cubic. cbn. repeat f_equal.
  rewrite map_map. apply map_id.
Qed.
Print Assumptions C46_there_and_back.

(** C46: exactly the glyphs with an outline and without lib are restored. *)
Theorem C46_restored_exact : forall (PD PL H : Type) (g : glif PD PL),
  glif_of_mglif (mglif_of_glif g : mglif PD H) = Ok g <-> g_outline g <> None /\ g_lib g = LNone.
Proof.
  intros. rewrite C46_there_and_back. destruct g as [o an co gu im w u n no f l]. cbn. split.
  - intros E. injection E as Eo El. split; [rewrite <- Eo; discriminate|congruence].
  - intros [Ho ->]. destruct o; [reflexivity|contradiction].
Qed.
Print Assumptions C46_restored_exact.

(** C46 as stated is false: a lib is lost. *)
Theorem C46_lib_refuted : exists g : glif unit nat,
  g_outline g = Some [] /\ glif_of_mglif (mglif_of_glif g : mglif unit unit) <> Ok g.
Proof. exists (mkGlif (Some []) [] components_default [] [] None [] [] None None (LPlist 5)). split; [reflexivity|discriminate]. Qed.
Print Assumptions C46_lib_refuted.

(** C58: turning an MFEK glyph into a plain one panics exactly when it has no layer or its first
    layer has a contour that is not cubic. *)
Theorem C58_downgrade_panics_exactly : forall (PD PL H : Type) (m : mglif PD H),
  (glif_of_mglif m = (Panic : res (glif PD PL)) <->
   mg_layers m = [] \/ exists l c, nth_error (mg_layers m) 0 = Some l /\ In c (l_outline l) /\ forall pts, mc_inner c <> Cubic pts) /\
  (glif_of_mglif m = (Panic : res (glif PD PL)) \/ exists g : glif PD PL, glif_of_mglif m = Ok g).
Proof.
  intros. unfold glif_of_mglif, idx. destruct (mg_layers m) as [|l ls] eqn:E; cbn [nth_error bind]; [split; [tauto|now left]|].
  destruct (downgrade_total (l_outline l)) as [[pts Hp]|(Hp & c & Hc & Hn)]; unfold downgrade in Hp; rewrite Hp; cbn [bind].
  - split; [|right; eauto]. split; [discriminate|]. intros [X|(l' & c & X & Hc & Hn)]; [discriminate|]. injection X as <-. exfalso.
    apply Verif.Facts.CreateFacts.mapM_ok in Hp. revert Hc Hn. clear - Hp. induction Hp as [|x y a b Hx _ IH]; [intros []|]. intros [->|Hc] Hn; [|auto].
    destruct (mc_inner c) eqn:Ei; try discriminate. now apply (Hn _ eq_refl).
  - split; [|now left]. split; [|reflexivity]. intros _. right. exists l, c. auto.
Qed.
Print Assumptions C58_downgrade_panics_exactly.

(** C58: and back again, it is the same exactly when it has a single visible layer with the
    default name, without color, operation or contour operations, whose images are placed
    where their matrices say, and nothing cached or recorded. *)
Theorem C58_restored_exact : forall (PD PL H : Type) (m : mglif PD H) (g : glif PD PL), glif_of_mglif m = Ok g ->
  (mglif_of_glif g = m <->
   exists l, mg_layers m = [l] /\ l_name l = lit "Layer 0" /\ l_visible l = true /\ l_color l = None /\
     l_operation l = None /\ (forall c, In c (l_outline l) -> mc_op c = None) /\
     (forall im a, In (im, a) (l_images l) -> a = affine_of_matrix (i_matrix im)) /\
     mg_history m = [] /\ mg_flattened m = None /\ mg_component_rects m = None).
Proof.
  intros PD PL H m g. unfold glif_of_mglif, idx. destruct m as [ls hi an co fl re gu w u n no fi]. cbn [mg_layers].
  destruct ls as [|l ls]; cbn [nth_error bind]; [discriminate|]. destruct (mapM _ (l_outline l)) as [o| |] eqn:E; try discriminate. cbn [bind].
  intros Eg. injection Eg as <-. unfold mglif_of_glif. cbn. split.
  - intros Em. injection Em as El <- <- <- <-. exists l. rewrite <- El. cbn. split; [reflexivity|]. split; [reflexivity|]. repeat (split; [reflexivity|]). split.
    + intros c Hc. apply in_map_iff in Hc as (x & <- & _). reflexivity.
    + split; [|auto]. intros im a Hi. apply in_map_iff in Hi as (x & Hx & _). now injection Hx as <- <-.
  - intros (l' & El & Hn & Hv & Hc & Ho & Hop & Him & -> & -> & ->). injection El as <- ->. destruct l as [ln lv lc lo lop li]. cbn in *. subst. f_equal. f_equal. f_equal.
    + apply downgrade_iff in E. clear - E Hop. induction E as [|c pts o os Hc E IH]; [reflexivity|]. cbn [map]. f_equal; [|apply IH; intros x Hx; apply Hop; now right].
      specialize (Hop c (or_introl eq_refl)). destruct c as [i op]. cbn in *. subst. reflexivity.
    + clear - Him. induction li as [|[im a] li IH]; [reflexivity|]. cbn [map fst]. rewrite IH by (intros; apply Him; now right).
      now rewrite <- (Him im a) by now left.
Qed.
Print Assumptions C58_restored_exact.

Definition pt (x y : Z) (t : ptype) : point unit := mkPoint (f32_of_Z x) (f32_of_Z y) Colocated Colocated None t false None.
Definition square : list (point unit) := [pt 0 0 Line; pt 10 0 Line; pt 10 10 Line; pt 0 10 Line].

(** Both hold for a glyph with an outline, a name and a width. *)
Example C46_case :
  let g : glif unit nat := mkGlif (Some [square]) [] components_default [] [] (Some 500%N) [65%N] (lit "A") None None LNone in
  glif_of_mglif (mglif_of_glif g : mglif unit unit) = Ok g /\
  (exists l, mg_layers (mglif_of_glif g : mglif unit unit) = [l] /\ l_outline l = [MC (Cubic square) None]).
Proof. split; [reflexivity|]. eexists. split; reflexivity. Qed.

(** * C47 Contour operations survive downgrade and upgrade *)

Theorem C47_restored : forall (PD : Type) (o : moutline PD) (pts : outline PD),
  downgrade o = Ok pts -> upgrade_ops (upgrade pts) (downgrade_ops o) = (Ok tt, o).
Proof.
  intros PD o pts H. apply downgrade_iff in H.
  assert (map mc_inner (upgrade pts) = map mc_inner o) as Hi.
  { induction H as [|c l o pts Hc H IH]; [reflexivity|]. unfold upgrade in *. cbn [map mcontour_of mc_inner]. rewrite IH, Hc. reflexivity. }
  destruct (upgrade_ops_ok (upgrade pts) (downgrade_ops o)) as (o' & -> & E1 & E2).
  { unfold downgrade_ops, upgrade. rewrite !map_length. clear Hi. now induction H; cbn; congruence. }
  f_equal. apply moutline_ext; [congruence|exact E2].
Qed.
Print Assumptions C47_restored.

(** C47: downgrading works exactly for cubic outlines, and loses nothing exactly when the
    outline says so. *)
Theorem C47_downgrade_exact : forall (PD : Type) (o : moutline PD) (pts : outline PD),
  (downgrade o = Ok pts <-> Forall2 (fun c l => mc_inner c = Cubic l) o pts) /\
  (downgrade o = Panic <-> exists c, In c o /\ forall l, mc_inner c <> Cubic l) /\
  (cleanly_downgradable o = true <-> exists p, downgrade o = Ok p /\ upgrade p = o).
Proof.
  intros PD o pts. split; [apply downgrade_iff|]. split.
  - destruct (downgrade_total o) as [[p Hp]|[Hp He]]; [|tauto]. split; [congruence|]. intros (c & Hc & Hn).
    apply downgrade_iff in Hp. exfalso. induction Hp as [|d l o p Hd Hp IH]; [destruct Hc|]. destruct Hc as [->|Hc]; [now apply (Hn l)|auto].
  - rewrite clean_iff. split.
    + intros [p ->]. exists p. split; [apply upgrade_downgrade|reflexivity].
    + intros (p & _ & <-). now exists p.
Qed.
Print Assumptions C47_downgrade_exact.

(** C47: with too few or too many operations the call fails; the points are never touched, and
    as many operations as possible have been set. *)
Theorem C47_wrong_number : forall (PD : Type) (o : moutline PD) (l : list (option (operations (mcontour PD)))),
  (fst (upgrade_ops o l) = Ok tt <-> length l = length o) /\
  (length l < length o -> exists o', upgrade_ops o l = (Err EMoreContoursThanOps, o') /\
     map mc_inner o' = map mc_inner o /\ map mc_op o' = l ++ skipn (length l) (map mc_op o)) /\
  (length o < length l -> exists o', upgrade_ops o l = (Err EMoreOpsThanContours, o') /\
     map mc_inner o' = map mc_inner o /\ map mc_op o' = firstn (length o) l).
Proof.
  intros PD o l. split; [|split; [apply upgrade_ops_short|apply upgrade_ops_long]].
  destruct (Nat.lt_trichotomy (length l) (length o)) as [H|[H|H]].
  - destruct (upgrade_ops_short o l H) as (o' & -> & _). cbn. split; [discriminate|lia].
  - destruct (upgrade_ops_ok o l H) as (o' & -> & _). cbn. tauto.
  - destruct (upgrade_ops_long o l H) as (o' & -> & _). cbn. split; [discriminate|lia].
Qed.
Print Assumptions C47_wrong_number.

(** C47 for whole glyphs: the operations taken out of a glyph and put into one with the same
    points and layers restore it; the numbers have to agree in every layer. *)
Theorem C47_glyph_restored : forall (PD H : Type) (m m' : mglif PD H),
  mg_with_layers m [] = mg_with_layers m' [] ->
  map (fun l => l_with_outline l []) (mg_layers m) = map (fun l => l_with_outline l []) (mg_layers m') ->
  map (fun l => map mc_inner (l_outline l)) (mg_layers m) = map (fun l => map mc_inner (l_outline l)) (mg_layers m') ->
  glif_upgrade_ops m' (glif_downgrade_ops m) = (Ok tt, m).
Proof.
  intros PD H m m' E E1 E2. unfold glif_upgrade_ops, glif_downgrade_ops. rewrite (layers_round _ _ E1 E2). f_equal.
  destruct m, m'. unfold mg_with_layers in *. cbn in *. congruence.
Qed.
Print Assumptions C47_glyph_restored.

Theorem C47_glyph_wrong_number : forall (PD H : Type) (m : mglif PD H) (l : list (list (option (operations (mcontour PD))))),
  (fst (glif_upgrade_ops m l) = Ok tt <-> Forall2 (fun y x => length x = length (l_outline y)) (mg_layers m) l) /\
  fst (glif_upgrade_ops m l) <> Panic.
Proof.
  intros PD H m l. unfold glif_upgrade_ops. pose proof (layers_upgrade_iff (mg_layers m) l) as E. pose proof (layers_upgrade_total (mg_layers m) l) as T.
  destruct (layers_upgrade_ops (mg_layers m) l). split; assumption.
Qed.
Print Assumptions C47_glyph_wrong_number.

Definition wide_stroke (hs : list Z) : operations (mcontour unit) :=
  OpVws (mkVws (map (fun z => mkVH (f64_of_Z z) (f64_of_Z z) pos_zero ILinear) hs) JMiter CapRound CapRound false false).
Definition dashed : operations (mcontour unit) := OpDash (mkDash (f32_of_Z 5) None [f32_of_Z 10] true 0%N 0%N).

Example C47_case :
  let o : moutline unit := [MC (Cubic square) (Some (wide_stroke [1; 2; 3; 4]%Z)); MC (Cubic [pt 5 5 Move]) None; MC (Cubic square) (Some dashed)] in
  downgrade o = Ok [square; [pt 5 5 Move]; square] /\
  upgrade_ops (upgrade [square; [pt 5 5 Move]; square]) (downgrade_ops o) = (Ok tt, o) /\
  cleanly_downgradable o = false.
Proof. repeat split. Qed.

(** * C48 Variable width stroke handles stay in step with points *)

(** Proved for histories without sub-ranges of variable-width contours and without insertions
    after the last point of one; the full statement is [in_range] in place of [in_range']. *)
Theorem C48_in_step_partial : forall (PD : Type) (c : mcontour PD) (l : list edit),
  in_step c -> allowed in_range' c l -> exists c', run c l = Ok c' /\ in_step c'.
Proof. intros PD c l. apply run_ok. Qed.
Print Assumptions C48_in_step_partial.

(** C48: exactly what a sub-range of a variable-width contour does: it panics when it reaches to
    the end, otherwise it keeps one stroke handle too many. *)
Theorem C48_sub_exact : forall (PD : Type) (c : mcontour PD) (b e : nat) (h : list vws_handle),
  in_step c -> handles c = Some h -> b <= e -> e <= size c ->
  (e = size c /\ do_edit c (ESub b e) = Panic) \/
  (e < size c /\ exists c' h', do_edit c (ESub b e) = Ok c' /\ range (points c) (points c') b e /\
     handles c' = Some h' /\ range h h' b (S e) /\ length h' = S (size c')).
Proof.
  intros PD c b e h Hs Hh Hb He. cbn [do_edit]. destruct (sub_step_vws c b e h Hs Hh Hb He) as [?|(Hlt & c' & h' & E & R & Hh' & R')]; [left; assumption|].
  right. split; [assumption|]. exists c', h'. repeat split; try assumption. apply range_length in R, R'. unfold size. lia.
Qed.
Print Assumptions C48_sub_exact.

(** C48 as stated is false: a sub-range panics or leaves too many handles, ... *)
Theorem C48_sub_refuted : exists (c c' : mcontour unit), in_step c /\
  in_range c (ESub 0 4) /\ do_edit c (ESub 0 4) = Panic /\
  in_range c (ESub 1 3) /\ do_edit c (ESub 1 3) = Ok c' /\ ~ in_step c'.
Proof.
  exists (MC (Cubic square) (Some (wide_stroke [1; 2; 3; 4]%Z))). eexists. split; [intros h [= <-]; reflexivity|].
  split; [cbn; lia|]. split; [reflexivity|]. split; [cbn; lia|]. split; [reflexivity|]. intros H. discriminate (H _ eq_refl).
Qed.
Print Assumptions C48_sub_refuted.

(** ... inserting a point after the last one panics for every variable-width contour, ... *)
Theorem C48_insert_at_end_refuted : forall (PD : Type) (c : mcontour PD) (p : mpoint PD),
  in_step c -> handles c <> None -> fits_in c p ->
  in_range c (EInsert (size c) p) /\ do_edit c (EInsert (size c) p) = Panic.
Proof.
  intros PD c p Hs Hn Hf. split; [cbn; auto|]. cbn [do_edit]. destruct (insert_spec c (size c) p Hf) as [(_ & i & -> & _)|(H & _)]; [|lia]. cbn [bind].
  destruct (handles c) as [h|] eqn:Eh; [|contradiction]. destruct (op_insert_spec (mc_op c) (size c) h Eh) as [(x & Ex & _)|(_ & ->)]; [|reflexivity].
  assert (size c < length h) by (apply nth_error_Some; congruence). specialize (Hs h Eh). lia.
Qed.
Print Assumptions C48_insert_at_end_refuted.

(** ... and deleting through the cubic wrapper type leaves the handle of the deleted point. *)
Theorem C48_cubic_delete_refuted : forall (PD : Type) (c c' : mcontour PD) (n : nat),
  in_step c -> handles c <> None -> mc_cubic_delete c n = Ok c' -> ~ in_step c'.
Proof.
  intros PD c c' n Hs Hn. unfold mc_cubic_delete. destruct (delete_spec c n) as [(_ & i & -> & W)|(_ & ->)]; cbn [bind]; [|discriminate].
  intros [= <-] H. destruct (handles c) as [h|] eqn:Eh; [|contradiction]. specialize (Hs h Eh). specialize (H h Eh).
  specialize (W (mc_op c)). apply without_length in W. unfold size in *. lia.
Qed.
Print Assumptions C48_cubic_delete_refuted.

(** A history with every kind of edit. *)
Example C48_case :
  let c : mcontour unit := MC (Cubic square) (Some (wide_stroke [1; 2; 3; 4]%Z)) in
  let l := [EDelete 1; EInsert 2 (MCubic (pt 7 7 Curve)); EAppend (MC (Cubic square) None); EReverse;
            EAppend (MC (Cubic square) (Some (wide_stroke [5; 6; 7; 8]%Z)))] in
  in_step c /\ allowed in_range' c l /\
  exists c', run c l = Ok c' /\ size c' = 12 /\ option_map (@length _) (handles c') = Some 12.
Proof.
  cbv zeta. split; [intros h [= <-]; reflexivity|]. split.
  - cbn [allowed]. split; [split; [cbn; lia|exact I]|]. intros c1 [= <-].
    split; [split; [cbn; split; [lia|exact I]|intros _; cbn; lia]|]. intros c2 [= <-].
    split; [split; [intros h [=]|exact I]|]. intros c3 [= <-]. split; [split; exact I|]. intros c4 [= <-].
    split; [split; [intros h [= <-]; reflexivity|exact I]|]. intros; exact I.
  - eexists. split; [vm_compute; reflexivity|]. split; reflexivity.
Qed.

(** * C54 Every point keeps its own stroke handle *)

Theorem C54_delete : forall (PD : Type) (c : mcontour PD) (n : nat) (s : list (mpoint PD * vws_handle)),
  in_step c -> strokes c = Some s -> n < size c ->
  exists c' s', mc_delete c n = Ok c' /\ strokes c' = Some s' /\ without s s' n.
Proof.
  intros PD c n s Hs Es Hn. destruct (delete_step c n Hs Hn) as (c' & E & _ & W & Hh & _).
  unfold strokes in Es. destruct (handles c) as [h|] eqn:Eh; [|discriminate]. injection Es as <-.
  destruct (Hh h eq_refl) as (h' & Eh' & W'). exists c', (combine (points c') h'). split; [assumption|]. split; [now apply strokes_of|].
  apply without_combine; try assumption. symmetry. now apply Hs.
Qed.
Print Assumptions C54_delete.

(** A point inserted before another one gets the widths of that one. *)
Theorem C54_insert : forall (PD : Type) (c : mcontour PD) (n : nat) (p : mpoint PD) (s : list (mpoint PD * vws_handle)),
  in_step c -> strokes c = Some s -> fits_in c p -> n < size c ->
  exists c' s' q h, do_edit c (EInsert n p) = Ok c' /\ strokes c' = Some s' /\
    nth_error s n = Some (q, h) /\ with_at s s' n (p, h).
Proof.
  intros PD c n p s Hs Es Hf Hn. destruct (insert_step c n p Hs Hf ltac:(lia) ltac:(auto)) as (c' & E & _ & W & Hh & _).
  unfold strokes in Es. destruct (handles c) as [h|] eqn:Eh; [|discriminate]. injection Es as <-.
  destruct (Hh h eq_refl) as (x & h' & Ex & Eh' & W'). destruct (nth_error (points c) n) as [q|] eqn:Eq; [|apply nth_error_None in Eq; unfold size in Hn; lia].
  exists c', (combine (points c') h'), q, x. split; [assumption|]. split; [now apply strokes_of|]. split.
  - clear - Eq Ex. revert h n Eq Ex. induction (points c) as [|a l IH]; intros [|b h] [|n] Eq Ex; cbn in *; try discriminate; [congruence|now apply IH].
  - now apply with_at_combine.
Qed.
Print Assumptions C54_insert.

(** Appending keeps the widths of both contours; points without stroke get the widths of the
    last point before them. *)
Theorem C54_append : forall (PD : Type) (c d : mcontour PD) (s : list (mpoint PD * vws_handle)),
  in_step c -> in_step d -> same_kind c d -> strokes c = Some s ->
  exists c', mc_append c d = Some c' /\
    (forall s', strokes d = Some s' -> strokes c' = Some (s ++ s')) /\
    (forall t q h, strokes d = None -> s = t ++ [(q, h)] -> strokes c' = Some (s ++ map (fun p => (p, h)) (points d))).
Proof.
  intros PD c d s Hc Hd K Es. destruct (append_step c d Hc Hd) as (c' & _ & _ & HK & _). destruct (HK K) as (E & Ep & Hh & _).
  unfold strokes in Es. destruct (handles c) as [h|] eqn:Eh; [|discriminate]. injection Es as <-. pose proof (Hc h Eh) as Hl.
  exists c'. split; [assumption|]. rewrite (strokes_of c' _ (Hh h eq_refl)), Ep. split.
  - intros s' Es'. unfold strokes in Es'. unfold extra. destruct (handles d) as [k|]; [|discriminate]. injection Es' as <-.
    rewrite combine_app; [reflexivity|]. unfold size in Hl. congruence.
  - intros t q x Es' Et. unfold strokes in Es'. unfold extra. destruct (handles d) as [k|]; [discriminate|].
    rewrite combine_app by (unfold size in Hl; congruence). do 2 f_equal.
    assert (last h default_vws_handle = x) as ->.
    { destruct (exists_last (l := h)) as (h0 & y & ->).
      { intros ->. destruct (points c); cbn in Et; destruct t; discriminate. }
      rewrite last_last. destruct (exists_last (l := points c)) as (p0 & z & Hp).
      { intros Hp. rewrite Hp in Et. destruct t; discriminate. }
      unfold size in Hl. rewrite Hp in Et, Hl. rewrite !app_length in Hl. cbn in Hl. rewrite combine_app in Et by lia. cbn in Et.
      apply app_inj_tail in Et as [_ Et]. congruence. }
    unfold size. clear. induction (points d) as [|a l IH]; [reflexivity|]. cbn. now rewrite IH.
Qed.
Print Assumptions C54_append.

(** Reversing the points does not reverse the widths. *)
Theorem C54_reverse_refuted : exists (c : mcontour unit) (s : list (mpoint unit * vws_handle)),
  in_step c /\ strokes c = Some s /\ strokes (mc_reverse c) <> Some (rev s).
Proof.
  exists (MC (Cubic square) (Some (wide_stroke [1; 2; 3; 4]%Z))). eexists. split; [intros h [= <-]; reflexivity|]. split; [reflexivity|].
  vm_compute. discriminate.
Qed.
Print Assumptions C54_reverse_refuted.

(** C54: exactly, reversing pairs the points in reverse order with the widths in the old order.
    So every point keeps its widths just if these are the same forwards and backwards. *)
Theorem C54_reverse_exact : forall (PD : Type) (c : mcontour PD) (s : list (mpoint PD * vws_handle)),
  in_step c -> strokes c = Some s ->
  strokes (mc_reverse c) = Some (combine (rev (map fst s)) (map snd s)) /\
  (strokes (mc_reverse c) = Some (rev s) <-> rev (map snd s) = map snd s).
Proof.
  intros PD c s Hs Es. unfold strokes in Es. destruct (handles c) as [h|] eqn:Eh; [|discriminate]. injection Es as <-.
  pose proof (Hs h Eh) as Hl. unfold size in Hl. rewrite fst_combine, snd_combine by congruence.
  assert (strokes (mc_reverse c) = Some (combine (rev (points c)) h)) as E.
  { rewrite (strokes_of (mc_reverse c) h) by exact Eh. f_equal. f_equal. apply reverse_points. }
  split; [exact E|]. rewrite E, <- (rev_combine (points c) h) by congruence. split.
  - intros H. injection H as H. apply (f_equal (map snd)) in H. rewrite !snd_combine in H by (rewrite ?rev_length; congruence). now symmetry.
  - intros ->. reflexivity.
Qed.
Print Assumptions C54_reverse_exact.

Example C54_case :
  let c : mcontour unit := MC (Cubic square) (Some (wide_stroke [1; 2; 3; 4]%Z)) in
  in_step c /\ (exists s, strokes c = Some s) /\ 2 < size c /\ fits_in c (MCubic (pt 1 1 Line)).
Proof. cbv zeta. split; [intros h [= <-]; reflexivity|]. split; [eexists; reflexivity|]. split; [cbn; lia|exact I]. Qed.

(** * C49 Merging layer lists *)

Theorem C49_contents : forall (PD : Type) (ls : list (layer PD)),
  to_layercontents ls = PArray (map (fun nl => entry (fst nl) (snd nl)) (visible ls)).
Proof. intros. unfold to_layercontents. now rewrite contents_eq. Qed.
Print Assumptions C49_contents.

Theorem C49_merge : forall (PD : Type) (ls : list (layer PD)) (theirs : list pvalue),
  let ours := map (fun nl => entry (fst nl) (snd nl)) (visible ls) in
  exists added, merge_layercontents ls (PArray theirs) = Ok (PArray (theirs ++ added)) /\
    firsts (fun e => ~ In e theirs) ours added /\ NoDup added /\
    (forall e, In e added <-> In e ours /\ ~ In e theirs) /\
    merge_layercontents ls (PArray (theirs ++ added)) = Ok (PArray (theirs ++ added)).
Proof.
  intros PD ls theirs ours. destruct (merge_full theirs (layercontents_from 0 ls) (contents_entries ls 0)) as (ad & E & F & N & I & M).
  unfold ours, visible. rewrite <- contents_eq. exists ad. unfold merge_layercontents. rewrite E, M. auto.
Qed.
Print Assumptions C49_merge.

(** Merging into something that is no list panics. *)
Theorem C49_merge_panics_exactly : forall (PD : Type) (ls : list (layer PD)) (v : pvalue),
  merge_layercontents ls v = Panic <-> forall l, v <> PArray l.
Proof. intros PD ls v. destruct v; cbn; split; try reflexivity; try discriminate. intros H. now destruct (H l). Qed.
Print Assumptions C49_merge_panics_exactly.

Definition named (n : str) (vis : bool) : layer unit := mkLayer n vis None [] None [].
Example C49_case :
  let ls := [named (lit "Layer 0") true; named (lit "Back") true; named (lit "Hidden") false; named (lit "Back") true] in
  let e a b := PArray [PString (lit a); PString (lit b)] in
  merge_layercontents ls (PArray [e "public.default" "glyphs"; PInt 3]%string) =
  Ok (PArray [e "public.default" "glyphs"; PInt 3; e "Back" "glyphs.B_ack"]%string).
Proof. reflexivity. Qed.

(** * C57 Layer directories *)

(** Layers other than the first get the same directory exactly when they have the same name, and
    never that of the first. *)
Theorem C57_directories_distinct : forall (PD : Type) (l l' : layer PD) (n n' : nat),
  (to_glyphs_dir l (S n) = to_glyphs_dir l' (S n') <-> l_name l = l_name l') /\
  to_glyphs_dir l 0 <> to_glyphs_dir l' (S n') /\
  to_glyphs_dir l 0 = lit "glyphs".
Proof.
  intros PD l l' n n'. split; [|split; [cbn; discriminate|reflexivity]]. cbn [to_glyphs_dir]. split; [|now intros ->].
  intros H. apply app_inv_head in H. now apply (filename_injective false).
Qed.
Print Assumptions C57_directories_distinct.

Example C57_case : to_glyphs_dir (named (lit "Ab") true) 1 = lit "glyphs.A_b" /\ to_glyphs_dir (named (lit "A_b") true) 2 = lit "glyphs.A__b".
Proof. split; reflexivity. Qed.

(** * C50 Stroke option names survive printing and parsing *)

Theorem C50_round_trip :
  (forall j, join_parse (join_show j) = Ok j) /\ (forall c, cap_parse (cap_show c) = Ok c) /\
  (forall i, interpolation_parse (interpolation_show i) = Ok i).
Proof. split; [exact join_text|]. split; [exact cap_text|exact interpolation_text]. Qed.
Print Assumptions C50_round_trip.

(** C50: what is accepted: the printed names, and for caps any file name of a glyph. *)
Theorem C50_accepts_exactly : forall (s : str),
  (forall j, join_parse s = Ok j <-> s = join_show j) /\
  (forall c, cap_parse s = Ok c <-> s = cap_show c \/ (c = CapCustom /\ exists t, s = t ++ lit ".glif")) /\
  (forall i, interpolation_parse s = Ok i <-> s = interpolation_show i).
Proof. intros s. split; [intros; apply join_parse_iff|]. split; [intros; apply cap_parse_iff|intros; apply interpolation_parse_iff]. Qed.
Print Assumptions C50_accepts_exactly.

(** C50: no two options are printed alike, and the file name of a custom cap is not printed. *)
Theorem C50_names_distinct :
  (forall j j', join_show j = join_show j' -> j = j') /\ (forall c c', cap_show c = cap_show c' -> c = c') /\
  (forall i i', interpolation_show i = interpolation_show i' -> i = i').
Proof. repeat split; intros [] []; try reflexivity; discriminate. Qed.
Print Assumptions C50_names_distinct.

Theorem C50_custom_name_refuted : exists s c, cap_parse s = Ok c /\ cap_show c <> s.
Proof. exists (lit "arrow.glif"), CapCustom. split; [reflexivity|discriminate]. Qed.
Print Assumptions C50_custom_name_refuted.

(** * C51 Handle access laws, for all three kinds of points *)

Theorem C51_any_kind_set_get : forall (PD : Type) (m : mpoint PD) (w v : which) (h : handle),
  (offers m w -> m_get_handle (m_set_handle m w h) w = Some h) /\
  (v <> w -> m_get_handle (m_set_handle m w h) v = m_get_handle m v) /\
  (~ offers m w -> m_set_handle m w h = m /\ m_get_handle m w = None) /\
  m_position (m_set_handle m w h) = m_position m /\ rest (m_set_handle m w h) = rest m /\
  m_colocate_handle m w = m_set_handle m w Colocated /\
  (forall x y, m_set_handle_position m w x y = m_set_handle m w (At x y)) /\
  (forall x y, m_get_handle_position m w = Some (x, y) <-> m_get_handle m w = Some (At x y)).
Proof.
  intros PD m w v h. unfold m_get_handle_position. destruct m, w; cbn; repeat split; try tauto; intros; subst; try tauto; try discriminate; try congruence;
    try (destruct v; try reflexivity; congruence);
    repeat match goal with H : context [match ?x with At _ _ => _ | Colocated => _ end] |- _ => destruct x end; try congruence;
    repeat match goal with |- context [match ?x with At _ _ => _ | Colocated => _ end] => destruct x end; congruence.
Qed.
Print Assumptions C51_any_kind_set_get.

(** C51: moving a point to a position moves its placed handles by the same distance and changes
    nothing else, when all coordinates are multiples of a power of two small enough for f32. *)
Theorem C51_move_partial : forall (PD : Type) (m : mpoint PD) (x y : f32) (k zx zy zx' zy' : Z),
  grid32 k -> on_grid k (fst (m_position m)) zx -> on_grid k (snd (m_position m)) zy ->
  on_grid k x zx' -> on_grid k y zy' -> countable (zx - zx') -> countable (zy - zy') ->
  let m' := m_set_position m x y in
  m_position m' = (x, y) /\ rest m' = rest m /\
  (forall w, (m_get_handle m' w = None <-> m_get_handle m w = None) /\
    (m_get_handle m' w = Some Colocated <-> m_get_handle m w = Some Colocated) /\
    (forall hx hy zhx zhy, m_get_handle m w = Some (At hx hy) -> on_grid k hx zhx -> on_grid k hy zhy ->
       countable (zhx + (zx' - zx)) -> countable (zhy + (zy' - zy)) ->
       exists hx' hy', m_get_handle m' w = Some (At hx' hy') /\
         on_grid k hx' (zhx + (zx' - zx)) /\ on_grid k hy' (zhy + (zy' - zy)))).
Proof.
  intros PD m x y k zx zy zx' zy' K Hx Hy Hx' Hy' Cx Cy m'. split; [now destruct m|]. split; [now destruct m|]. intros w.
  set (dx := sub32 (fst (m_position m)) x). set (dy := sub32 (snd (m_position m)) y).
  assert (m_get_handle m' w = option_map (shift_handle dx dy) (m_get_handle m w)) as -> by (unfold m', dx, dy; destruct m, w; reflexivity).
  split; [destruct (m_get_handle m w); cbn; split; congruence|].
  split; [destruct (m_get_handle m w) as [[]|]; cbn; split; congruence|].
  intros hx hy zhx zhy -> Gx Gy C1 C2. cbn. eexists _, _. split; [reflexivity|].
  replace (zhx + (zx' - zx))%Z with (zhx - (zx - zx'))%Z in * by lia. replace (zhy + (zy' - zy))%Z with (zhy - (zy - zy'))%Z in * by lia.
  split; apply sub_exact32; try assumption; apply sub_exact32; assumption.
Qed.
Print Assumptions C51_move_partial.

(** C51: with arbitrary floats the handles may move by a slightly different distance. *)
Theorem C51_move_refuted : exists (m : mpoint unit) (x y : f32) (hx hy hx' hy' : f32),
  m_get_handle m WA = Some (At hx hy) /\ m_get_handle (m_set_position m x y) WA = Some (At hx' hy') /\
  same_value (fst (m_position m)) 16777216 /\ same_value x 0 /\ same_value hx (1 # 2) /\ same_value hx' (-16777216).
Proof.
  exists (MCubic (mkPoint (f32_of_Z 16777216) pos_zero (At (S754_finite false 8388608 (-24)) pos_zero) Colocated None Curve false None)), pos_zero, pos_zero.
  eexists _, _, _, _. split; [reflexivity|]. split; [vm_compute; reflexivity|].
  repeat split; (eexists; split; [vm_compute; reflexivity|reflexivity]).
Qed.
Print Assumptions C51_move_refuted.

(** C51: moving without handles leaves the handles where they are. *)
Theorem C51_move_without_handles : forall (PD : Type) (m : mpoint PD) (x y : f32),
  let m' := m_set_position_no_handles m x y in
  m_position m' = (x, y) /\ rest m' = rest m /\ forall w, m_get_handle m' w = m_get_handle m w.
Proof. intros PD m x y. destruct m; cbn; repeat split; now destruct w. Qed.
Print Assumptions C51_move_without_handles.

(** A quarter grid: the point (1/4, 2) with a handle at (3/4, 5/2) moved to (7/4, 1). *)
Example C51_move_case :
  let f n := S754_finite false (Pos.shiftl n (24 - Npos (Pos.size n))) (- (24 - Zpos (Pos.size n)) - 2) in
  let m : mpoint unit := MQuad (mkQ (f 1%positive) (f 8%positive) (At (f 3%positive) (f 10%positive)) None Curve false None) in
  grid32 (-2) /\ on_grid (-2) (f 1%positive) 1 /\ on_grid (-2) (f 8%positive) 8 /\ on_grid (-2) (f 7%positive) 7 /\ on_grid (-2) (f 4%positive) 4 /\
  on_grid (-2) (f 3%positive) 3 /\ on_grid (-2) (f 10%positive) 10 /\
  m_set_position m (f 7%positive) (f 4%positive) =
    MQuad (mkQ (f 7%positive) (f 4%positive) (At (f 9%positive) (f 6%positive)) None Curve false None).
Proof.
  cbv zeta. split; [split; discriminate|].
  assert (forall f z, valid32 f = true -> val f z (-2) -> on_grid (-2) f z) as G by (intros; apply grid_val; auto).
  repeat (split; [apply G; vm_compute; reflexivity|]). vm_compute. reflexivity.
Qed.

(** * C55 Iterating over a contour *)

Theorem C55_iterates_all_points : forall (PD : Type) (c : mcontour PD) (fuel : nat),
  size c < fuel -> iter_collect fuel (mc_inner c) 0 = Some (points c).
Proof.
  intros PD c fuel H. destruct fuel as [|k]; [lia|]. unfold size in H. rewrite collect_from by lia. reflexivity.
Qed.
Print Assumptions C55_iterates_all_points.

Theorem C55_get_point : forall (PD : Type) (c : mcontour PD) (n : nat),
  inner_get_point (mc_inner c) n = nth_error (points c) n /\ inner_len (mc_inner c) = length (points c).
Proof. intros. split; [apply get_point_spec|apply len_size]. Qed.
Print Assumptions C55_get_point.

(** The point after the n-th of a hyperbezier contour: cyclic when closed, none after the last
    one when open (or when there is only one). *)
Theorem C55_next_point : forall (PD : Type) (l : list (hpoint PD)) (open : bool) (n : nat),
  n < length l ->
  hyper_next_point l open n =
  if open then nth_error l (n + 1) else if length l =? 1 then None else nth_error l ((n + 1) mod length l).
Proof.
  intros PD l open n H. unfold hyper_next_point. destruct (Nat.eqb_spec (n + 1) (length l)) as [E|E]; destruct open; cbn [andb negb]; try reflexivity.
  - destruct (Nat.ltb_spec 1 (length l)); destruct (Nat.eqb_spec (length l) 1); try lia.
    + rewrite E, Nat.mod_same by lia. reflexivity.
    + apply nth_error_None. lia.
  - destruct (Nat.eqb_spec (length l) 1); [lia|]. rewrite Nat.mod_small by lia. reflexivity.
Qed.
Print Assumptions C55_next_point.

Example C55_case : iter_collect 5 (Cubic square) 0 = Some (map MCubic square) /\
  hyper_next_point [h_new (PD := unit) pos_zero pos_zero HCurve true; h_new pos_zero (f32_of_Z 1) HLine true] false 1 =
  Some (h_new pos_zero pos_zero HCurve true).
Proof. split; reflexivity. Qed.

(** * C56 Opening and closing a contour *)

(** A contour with points (any number for hyperbeziers) can be opened and closed; nothing but the
    type of its first point changes.  Afterwards it is open and closed, save that a single cubic
    point stays open. *)
Theorem C56_set_open : forall (PD : Type) (i : inner PD), i <> Cubic [] -> i <> Quad [] ->
  exists o c b, inner_set_open i = Ok o /\ inner_set_closed i = Ok c /\
    inner_is_open o = Ok true /\ inner_is_open c = Ok b /\ (b = true <-> exists p, i = Cubic [p]) /\
    match i, o, c with
    | Cubic (p :: l), Cubic (p' :: l'), Cubic (p'' :: l'') =>
        p' = with_ptype p Move /\ l' = l /\ p'' = with_ptype p Curve /\ l'' = l
    | Quad (q :: l), Quad (q' :: l'), Quad (q'' :: l'') =>
        (q_x q', q_y q', q_a q', rest (MQuad q')) = (q_x q, q_y q, q_a q, (q_name q, Some Move, None, q_smooth q, q_data q)) /\ l' = l /\
        (q_x q'', q_y q'', q_a q'', rest (MQuad q'')) = (q_x q, q_y q, q_a q, (q_name q, Some Curve, None, q_smooth q, q_data q)) /\ l'' = l
    | Hyper l _, Hyper l' _, Hyper l'' _ => l' = l /\ l'' = l
    | _, _, _ => False
    end.
Proof.
  intros PD i H1 H2. destruct i as [[|p [|p' l]]|[|q l]|l b]; try congruence; cbn; eexists _, _, _; do 4 (split; [reflexivity|]).
  all: split; [split; [try discriminate; eauto|intros (x & E); try discriminate E; reflexivity]|repeat split; reflexivity].
Qed.
Print Assumptions C56_set_open.

(** Panics: exactly on contours without points that are not hyperbeziers. *)
Theorem C56_panics_exactly : forall (PD : Type) (i : inner PD),
  (inner_set_open i = Panic <-> i = Cubic [] \/ i = Quad []) /\
  (inner_set_closed i = Panic <-> i = Cubic [] \/ i = Quad []) /\
  (inner_is_open i = Panic <-> i = Quad []).
Proof. intros PD i. destruct i as [[|p l]|[|q l]|l b]; cbn; repeat split; try intros [H|H]; try intros H; try reflexivity; try discriminate; auto. Qed.
Print Assumptions C56_panics_exactly.

(** A single cubic point stays open, and closing a contour opened before does not restore a
    line: both claims are false. *)
Theorem C56_close_refuted :
  (exists i i' : inner unit, inner_set_closed i = Ok i' /\ inner_is_open i' = Ok true) /\
  (exists i i' i'' : inner unit, inner_is_open i = Ok false /\ inner_set_open i = Ok i' /\ inner_set_closed i' = Ok i'' /\ i'' <> i).
Proof.
  split.
  - exists (Cubic [pt 0 0 Move]). eexists. split; reflexivity.
  - exists (Cubic square). eexists _, _. split; [reflexivity|]. split; [reflexivity|]. split; [reflexivity|]. discriminate.
Qed.
Print Assumptions C56_close_refuted.

Example C56_case : 2 <= inner_len (Cubic square) /\ 2 <= inner_len (Quad [q_from_x_y_type (PD := unit) pos_zero pos_zero Line; q_from_x_y_type pos_zero pos_zero Line]).
Proof. split; cbn; lia. Qed.
