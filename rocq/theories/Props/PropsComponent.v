(** Properties C31-C36: resolving and flattening components. *)
Require Import Coq.Strings.String Coq.Lists.List Coq.NArith.NArith Coq.ZArith.ZArith Coq.Bool.Bool Coq.Floats.SpecFloat Coq.micromega.Lia
  Coq.Relations.Relation_Operators Coq.Sorting.Permutation.
Require Import Verif.Model.Base Verif.Model.Text Verif.Model.Float Verif.Model.Num Verif.Model.RustNum Verif.Model.Point Verif.Model.Contour
  Verif.Model.Names Verif.Model.Xml Verif.Model.Parts Verif.Model.Read Verif.Model.Component
  Verif.Spec.ComponentSpec
  Verif.Facts.OrderFacts Verif.Facts.MatrixFacts Verif.Facts.ComponentFacts.
Import ListNotations.
Local Open Scope nat_scope.

Section Component.
Context (L : numlib) {PD PL : Type} (pd0 : PD) (P : plistlib PL).
(** The file system and the XML parser. *)
Context {T : Type} (files : path -> option T) (parse : T -> option element).
Notation load := (to_component L pd0 P files parse).
Notation forest := (build_forest L pd0 P files parse).
Notation flat := (flattened L pd0 P files parse).

(** C31: for finitely many files (different paths may lead to the same file) there is a depth of
    recursion that is never exceeded, whatever is resolved or flattened. *)
Theorem C31_terminates : forall texts, (forall p x, files p = Some x -> In x texts) ->
  exists n, forall fuel, n <= fuel ->
    (forall cs, forest fuel cs <> None) /\ (forall rects g, flat fuel rects g <> None).
Proof.
  intros texts H. destruct (finite_names L pd0 P files parse texts H) as (bases & HB). exists (S (List.length bases)). intros fuel Hf.
  assert (forall cs, forest fuel cs <> None) as HF by (intros cs; apply (forest_ends L pd0 P files parse bases); [assumption|lia]).
  split; [assumption|]. intros rects g. unfold flattened. specialize (HF (g_components g)). destruct (forest fuel (g_components g)) as [[f| |]|]; try discriminate; [|congruence].
  destruct (flatten_forest f []). discriminate.
Qed.

(** C31: the depth allowed makes no difference to the result. *)
Theorem C31_result_is_definite : forall n m rects g r r', flat n rects g = Some r -> flat m rects g = Some r' -> r = r'.
Proof.
  intros n m rects g r r'. unfold flattened.
  destruct (forest n (g_components g)) as [x|] eqn:E; [|discriminate]. destruct (forest m (g_components g)) as [y|] eqn:E'; [|intros _; discriminate].
  assert (x = y) as ->.
  { unfold build_forest in *. pose proof (forest_mono _ _ _ _ _ _ _ _ _ _ E (Nat.max n m) ltac:(lia)). pose proof (forest_mono _ _ _ _ _ _ _ _ _ _ E' (Nat.max n m) ltac:(lia)). congruence. }
  congruence.
Qed.

Lemma bind_result {A B} (r : res A) (k : A -> res B) b : bind r k = Ok b -> exists a, r = Ok a /\ k a = Ok b.
Proof. destruct r; cbn; [eauto|discriminate|discriminate]. Qed.
(** C32: what is read from a file meets the condition on [cs_uniques] in the theorems below. *)
Theorem C32_read_not_seen : forall ped fn g, read_from_filename L pd0 P T files parse ped fn = Ok g ->
  cs_uniques (g_components g) = [] /\ cs_root (g_components g) = g_name g.
Proof.
  intros ped fn g H. unfold read_from_filename in H. apply bind_result in H as (txt & _ & H). apply bind_result in H as (root & _ & H). apply bind_result in H as (g0 & E & H).
  injection H as <-. cbn [g_components cs_uniques cs_root g_name]. unfold read_element in E.
  repeat match goal with
  | H : bind _ _ = Ok _ |- _ => let x := fresh "x" in apply bind_result in H as (x & _ & H)
  | H : (if _ then _ else _) = Ok _ |- _ => destruct (negb _) in H; [discriminate|]
  | H : context [let '(_, _) := ?p in _] |- _ => destruct p
  end.
  injection E as <-. auto.
Qed.

(** C32: what is found is what the references unfold to. *)
Theorem C32_resolved_soundly : forall cs fuel ts, forest fuel cs = Some (Ok ts) -> Forall2 (resolves load) (cs_vec cs) ts.
Proof. intros cs fuel ts H. eapply forest_ok, H. Qed.

(** C32: unless names of included glyphs have path separators, resolving succeeds exactly when the
    references unfold to finite trees, and gives them.  (So a glyph may be shared any number of
    times.) *)
Theorem C32_resolved_exactly : forall cs ts, cs_uniques cs = [] -> plain_below load (cs_vec cs) ->
  ((exists fuel, forest fuel cs = Some (Ok ts)) <-> Forall2 (resolves load) (cs_vec cs) ts).
Proof.
  intros cs ts Hu Hp. unfold build_forest. rewrite Hu. split.
  - intros (n & H). eapply forest_ok, H.
  - now apply forest_finds.
Qed.

(** C32: it never succeeds when a reachable glyph includes itself. *)
Theorem C32_cycle_never_succeeds : forall cs fuel ts, cyclic load (cs_vec cs) -> forest fuel cs <> Some (Ok ts).
Proof.
  intros cs fuel ts (r0 & r & r' & Hi & Hr & Hd & _ & Hf) H. apply forest_ok in H.
  assert (exists t, resolves load r0 t) as (t & Ht).
  { clear -H Hi. induction H as [|x y l l' Hxy _ IH]; [destruct Hi|]. destruct Hi as [->|Hi]; eauto. }
  destruct (resolves_reaches _ _ _ _ _ _ _ _ Ht Hr) as (t' & Ht' & _). eapply resolves_acyclic; eassumption.
Qed.

(** C32: a cycle is reported only when a reachable glyph includes one of the same name, and
    unless names have path separators that is the glyph itself. *)
Theorem C32_cycle_only_if_same_name : forall cs fuel base from root, cs_uniques cs = [] ->
  forest fuel cs = Some (Err (ECyclical base from root)) ->
  root = cs_root cs /\ exists r0 r r', In r0 (cs_vec cs) /\ reaches load r0 r /\ includes_deep load r r' /\ c_base r = base /\ c_base r' = base.
Proof.
  intros cs fuel base from root Hu H. unfold build_forest in H. rewrite Hu in H. apply forest_err in H as [(r0 & r & _ & _ & H)|(r0 & r1 & r & from' & H0 & H1 & H2 & H3 & H4)].
  - exfalso. eapply load_acyc, H.
  - injection H4 as -> _ ->. split; [reflexivity|]. exists r0, r1, r. split; [assumption|]. split; [|auto].
    apply includes_deep_reaches in H1 as (x & X1 & X2). now apply rt1n_trans with x.
Qed.
Theorem C32_cycle_only_if_cycle : forall cs fuel base from root, cs_uniques cs = [] -> plain_below load (cs_vec cs) ->
  forest fuel cs = Some (Err (ECyclical base from root)) ->
  root = cs_root cs /\ exists r0 r r', In r0 (cs_vec cs) /\ reaches load r0 r /\ includes_deep load r r' /\ same_glyph r r' /\ c_base r' = base.
Proof.
  intros cs fuel base from root Hu Hp H. unfold build_forest in H. rewrite Hu in H. apply forest_err in H as [(r0 & r & _ & _ & H)|(r0 & r1 & r & from' & H0 & H1 & H2 & H3 & H4)].
  - exfalso. eapply load_acyc, H.
  - injection H4 as -> _ ->. split; [reflexivity|]. exists r0, r1, r. split; [assumption|]. split.
    + apply includes_deep_reaches in H1 as (x & X1 & X2). now apply rt1n_trans with x.
    + split; [assumption|]. split; [eapply below_same; eassumption|reflexivity].
Qed.

(** C32: when everything reachable can be loaded and no name has path separators, the outcome is
    a cycle error exactly when there is a cycle, and otherwise a success. *)
Theorem C32_cycle_iff : forall texts cs, cs_uniques cs = [] -> (forall p x, files p = Some x -> In x texts) ->
  plain_below load (cs_vec cs) ->
  (forall r0 r, In r0 (cs_vec cs) -> reaches load r0 r -> exists c, load r = Ok c) ->
  exists n, forall fuel, n <= fuel ->
    (cyclic load (cs_vec cs) -> exists base from, forest fuel cs = Some (Err (ECyclical base from (cs_root cs)))) /\
    (~ cyclic load (cs_vec cs) -> exists ts, forest fuel cs = Some (Ok ts)).
Proof.
  intros texts cs Hu Hd Hp Hl. destruct (C31_terminates texts Hd) as (n & Hn). exists n. intros fuel Hf. destruct (Hn fuel Hf) as [H _]. specialize (H cs).
  destruct (forest fuel cs) as [[ts|e|]|] eqn:E; [| | |congruence].
  - split; [|eauto]. intros Hc. exfalso. eapply C32_cycle_never_succeeds; eassumption.
  - assert (exists base from, e = ECyclical base from (cs_root cs)) as (base & from & ->).
    { unfold build_forest in E. rewrite Hu in E. apply forest_err in E as [(r0 & r & H0 & H1 & H2)|(r0 & r1 & r & from' & H0 & H1 & H2 & H3 & H4)]; [|eauto].
      destruct (Hl _ _ H0 H1). congruence. }
    split; [eauto|]. intros Hc. exfalso. apply Hc. apply C32_cycle_only_if_cycle in E as (_ & r0 & r & r' & H0 & H1 & H2 & H3 & _); [|assumption..].
    exists r0, r, r'. auto.
  - exfalso. unfold build_forest in E. rewrite Hu in E. apply forest_panic in E as (r0 & r & H0 & H1 & H2). destruct (Hl _ _ H0 H1). congruence.
Qed.

(** C33 / C34, exact: the flattened outline is made of the contours of the direct components and
    of their direct components (these from last to first), each under its own matrix and then
    that of its parent; the contours of the glyph itself are not in it. *)
Theorem C34_matrices_inside_out : forall fuel rects g g' rs, cs_uniques (g_components g) = [] ->
  flat fuel rects g = Some (Ok (g', rs)) ->
  exists ts o, Forall2 (resolves load) (cs_vec (g_components g)) ts /\ g_outline g' = Some o /\
    Forall2 (fun x c' => moved (fst x) (snd x) c') (flat_map upper_contours ts) o.
Proof.
  intros fuel rects g g' rs Hu. unfold flattened. destruct (forest fuel (g_components g)) as [[f| |]|] eqn:E; try discriminate.
  pose proof (flatten_forest_fst f []) as F. destruct (flatten_forest f []) as [o rl]. cbn [fst app] in F. intros H. injection H as <- <-.
  exists f, o. split; [eapply forest_ok; exact E|]. split; [reflexivity|]. subst o. apply places_moved.
Qed.

(** C33: what is missing from the flattened outline. *)
Theorem C33_what_is_lost : forall fuel rects g g' rs, cs_uniques (g_components g) = [] ->
  flat fuel rects g = Some (Ok (g', rs)) ->
  exists ts o kept, Forall2 (resolves load) (cs_vec (g_components g)) ts /\ g_outline g' = Some o /\
    Forall2 (fun x c' => moved (fst x) (snd x) c') kept o /\
    Permutation (glyph_contours g ts) (kept ++ map (pair []) (contours_of g) ++ flat_map lower_contours ts).
Proof.
  intros fuel rects g g' rs Hu H. destruct (C34_matrices_inside_out _ _ _ _ _ Hu H) as (ts & o & H1 & H2 & H3).
  exists ts, o, (flat_map upper_contours ts). repeat split; try assumption. unfold glyph_contours. rewrite all_split_forest.
  rewrite !app_assoc. apply Permutation_app_tail, Permutation_app_comm.
Qed.

(** C33, where it holds: no contours of its own and components nested at most twice. *)
Theorem C33_all_contours_partial : forall fuel rects g g' rs, cs_uniques (g_components g) = [] ->
  flat fuel rects g = Some (Ok (g', rs)) ->
  contours_of g = [] ->
  (forall r t, In r (cs_vec (g_components g)) -> resolves load r t -> shallow t) ->
  exists ts o kept, Forall2 (resolves load) (cs_vec (g_components g)) ts /\ g_outline g' = Some o /\
    Forall2 (fun x c' => moved (fst x) (snd x) c') kept o /\
    Permutation (glyph_contours g ts) kept.
Proof.
  intros fuel rects g g' rs Hu H Ho Hs. destruct (C33_what_is_lost _ _ _ _ _ Hu H) as (ts & o & kept & H1 & H2 & H3 & H4).
  exists ts, o, kept. repeat split; try assumption. rewrite H4, Ho. cbn [map app].
  assert (flat_map lower_contours ts = []) as ->; [|now rewrite app_nil_r].
  clear -H1 Hs. induction H1 as [|r t rs ts Hr H1 IH]; [reflexivity|]. cbn [flat_map]. rewrite shallow_lower by (eapply Hs; [now left|eassumption]).
  apply IH. intros r' t' Hr'. apply Hs. now right.
Qed.

(** C34: with integer members and coordinates below the precision of the floats, applying the
    matrices one after the other is exactly the product of the matrices. *)
Theorem C34_exact_product : forall ms zs x y zx zy, Forall2 is_zaffine ms zs ->
  is_int32 x zx -> is_int32 y zy -> fits_all zs (zx, zy) ->
  let '(x', y') := move_xy ms x y in
  let '(zx', zy') := zapply (fold_left zthen zs zid) (zx, zy) in
  is_int32 x' zx' /\ is_int32 y' zy'.
Proof.
  intros ms zs x y zx zy Hm Hx Hy Hf. pose proof (move_xy_exact ms zs Hm x y (zx, zy) Hx Hy Hf) as H. rewrite zthen_fold, zid_apply.
  destruct (move_xy ms x y) as [x' y']. destruct (fold_left _ zs (zx, zy)) as [zx' zy']. exact H.
Qed.

(** C35: what each component contributes, and its rectangle. *)
Definition rect_of_placed (t : ctree PD PL) (r : comp_rect) : Prop :=
  r_name r = g_name (cp_glif (cdata t)) /\
  match rev (placed t) with
  | [] => r_minx r = pos_zero /\ r_miny r = pos_zero /\ r_maxx r = pos_zero /\ r_maxy r = pos_zero
  | k :: _ => (forall p, In p (concat (own_contours k)) -> numeric p) -> tight r (concat (own_contours k))
  end.
Lemma flat_both : forall fuel rs0 g g' rs, cs_uniques (g_components g) = [] ->
  flat fuel (Some rs0) g = Some (Ok (g', rs)) ->
  exists ts o rl, Forall2 (resolves load) (cs_vec (g_components g)) ts /\ g_outline g' = Some o /\
    Forall2 (fun x c' => moved (fst x) (snd x) c') (flat_map upper_contours ts) o /\ rs = Some rl /\
    Forall2 rect_of_placed ts rl.
Proof.
  intros fuel rs0 g g' rs Hu. unfold flattened. destruct (forest fuel (g_components g)) as [[f| |]|] eqn:E; try discriminate.
  pose proof (flatten_forest_fst f []) as F.
  destruct (flatten_forest_snd f []) as (fs & HL & HS). destruct (flatten_forest f []) as [o rl]. cbn [snd] in HS. cbn [fst app] in F. intros H. injection H as <- <-.
  apply forest_ok in E. exists f, o, rl. split; [assumption|]. split; [reflexivity|]. split; [subst o; apply places_moved|]. split; [reflexivity|]. subst rl. clear -E HL. revert fs HL.
  generalize dependent (cs_vec (g_components g)). induction f as [|t f IH]; intros rs E fs HL; [constructor|]. destruct fs as [|fi fs]; [discriminate|].
  inversion E as [|r ? rs' ? Hr Hrs]; subst. cbn [combine map fst snd]. constructor; [|eapply IH; [eassumption|now injection HL]].
  apply flatten_tree_rect.
  - apply resolves_inv in Hr as (c & ts & -> & Hl & _). cbn [cdata]. eapply load_contours_nonempty, Hl.
  - apply resolves_inv in Hr as (c & ts & -> & Hl & Hc). cbn [cchildren]. intros t' x Ht'.
    assert (exists r', resolves load r' t') as (r' & Hr').
    { clear -Hc Ht'. induction Hc as [|a b l l' Hab _ IH]; [destruct Ht'|]. destruct Ht' as [->|Ht']; eauto. }
    apply resolves_inv in Hr' as (c' & ts' & -> & Hl' & _). cbn [cdata]. eapply load_contours_nonempty, Hl'.
Qed.

(** C35, exact: the rectangle is around the untransformed points of the last component whose
    contours were placed; without any, it is zero. *)
Theorem C35_rect_exact : forall fuel rs0 g g' rs, cs_uniques (g_components g) = [] ->
  flat fuel (Some rs0) g = Some (Ok (g', rs)) ->
  exists ts rl, Forall2 (resolves load) (cs_vec (g_components g)) ts /\ rs = Some rl /\
    Forall2 (fun t r =>
      r_name r = g_name (cp_glif (cdata t)) /\
      match rev (placed t) with
      | [] => r_minx r = pos_zero /\ r_miny r = pos_zero /\ r_maxx r = pos_zero /\ r_maxy r = pos_zero
      | k :: _ => (forall p, In p (concat (own_contours k)) -> numeric p) -> tight r (concat (own_contours k))
      end) ts rl.
Proof.
  intros fuel rs0 g g' rs Hu H. destruct (flat_both _ _ _ _ _ Hu H) as (ts & o & rl & H1 & _ & _ & H2 & H3). exists ts, rl. auto.
Qed.

(** C35, where it holds: among any number of components, for each without parts whose matrix
    leaves the points alone. *)
Theorem C35_rect_bounds_partial : forall fuel rs0 g g' rs, cs_uniques (g_components g) = [] ->
  flat fuel (Some rs0) g = Some (Ok (g', Some rs)) ->
  exists ts os, Forall2 (resolves load) (cs_vec (g_components g)) ts /\ g_outline g' = Some (concat os) /\
    Forall2 (fun t o => Forall2 (fun x c' => moved (fst x) (snd x) c') (upper_contours t) o) ts os /\
    length rs = length ts /\
    forall i r o rect, nth_error (cs_vec (g_components g)) i = Some r -> nth_error os i = Some o -> nth_error rs i = Some rect ->
    (forall c, load r = Ok c -> parts c = [] /\
       forall p, In p (concat (own_contours c)) -> numeric p /\ apply_xy (cp_matrix c) (px p) (py p) = (px p, py p)) ->
    forall p, In p (concat o) ->
      fle (r_minx rect) (px p) = true /\ fle (px p) (r_maxx rect) = true /\ fle (r_miny rect) (py p) = true /\ fle (py p) (r_maxy rect) = true.
Proof.
  intros fuel rs0 g g' rs Hu H. destruct (flat_both _ _ _ _ _ Hu H) as (ts & o & rl & H1 & H2 & H3 & H4 & H5). injection H4 as <-.
  assert (exists os, o = concat os /\ Forall2 (fun t o => Forall2 (fun x c' => moved (fst x) (snd x) c') (upper_contours t) o) ts os) as (os & -> & Ho).
  { clear -H3. revert o H3. induction ts as [|t ts IH]; intros o H3; cbn [flat_map] in H3.
    - inversion H3. exists []. split; [reflexivity|constructor].
    - apply Forall2_app_inv_l in H3 as (o1 & o2 & F1 & F2 & ->). destruct (IH _ F2) as (os & -> & F). exists (o1 :: os). split; [reflexivity|now constructor]. }
  exists ts, os. split; [assumption|]. split; [assumption|]. split; [assumption|]. split; [clear -H5; induction H5; cbn; congruence|].
  clear H H2 H3 Hu. revert os rs Ho H5. induction H1 as [|r t vec ts Ht Hts IH]; intros os rs Ho H5 i r' o rect Ei Eo Er Hc p Hin.
  { destruct i; discriminate. }
  inversion Ho as [|? o1 ? os' Q1 Q2]; subst. inversion H5 as [|? rect1 ? rs' Q3 Q4]; subst.
  destruct i as [|i]; [|eapply (IH os' rs' Q2 Q4 i); eassumption].
  cbn in Ei, Eo, Er. injection Ei as ->. injection Eo as ->. injection Er as ->. clear IH Ho H5 Q2 Q4 Hts.
  apply resolves_inv in Ht as (c & ts' & -> & Hl & Hts'). destruct (Hc c Hl) as (Hp & Hpts). rewrite Hp in Hts'. inversion Hts'; subst.
  destruct Q3 as [_ Hrect]. unfold placed in Hrect. cbn [cdata cchildren map filter rev] in Hrect.
  cbn [upper_contours rev flat_map] in Q1. rewrite app_nil_r in Q1.
  destruct (own_contours c) as [|k0 ks] eqn:Eo'; [inversion Q1; subst; destruct Hin|]. cbn [rev app] in Hrect. rewrite Eo' in Hrect.
  destruct Hrect as [Hrect _]; [intros q Hq; now apply Hpts|].
  assert (exists q, In q (concat (k0 :: ks)) /\ px p = px q /\ py p = py q) as (q & Hq & -> & ->).
  { assert (forall q, In q (concat (k0 :: ks)) -> apply_xy (cp_matrix c) (px q) (py q) = (px q, py q)) as HA by (intros q Hq; apply Hpts, Hq). clear -Q1 Hin HA.
    remember (k0 :: ks) as kk eqn:Ekk. clear Ekk. revert o Q1 Hin. induction kk as [|k kk IH]; intros o H3' Hin; inversion H3' as [|x c' l0 o' Hm Hrest]; subst; [destruct Hin|].
    cbn [concat] in *. apply in_app_iff in Hin as [Hin|Hin].
    - cbn [fst snd] in Hm.
      assert (exists q, In q k /\ px p = px q /\ py p = py q) as (q & Hq & E).
      { assert (forall q, In q k -> apply_xy (cp_matrix c) (px q) (py q) = (px q, py q)) as HA' by (intros q Hq; apply HA, in_app_iff; now left). clear -Hm Hin HA'.
        induction Hm as [|a b l l' (Hxy & _) _ IH]; [destruct Hin|]. destruct Hin as [->|Hin].
        - exists a. split; [now left|]. unfold move_xy in Hxy. cbn [fold_left] in Hxy. rewrite HA' in Hxy by now left. injection Hxy as -> ->. auto.
        - destruct (IH Hin) as (q & Hq & E); [intros q Hq; apply HA'; now right|]. exists q. split; [now right|assumption]. }
      exists q. split; [apply in_app_iff; now left|assumption].
    - destruct (IH (fun q Hq => HA q (proj2 (in_app_iff _ _ _) (or_intror Hq))) o' Hrest Hin) as (q & Hq & E). exists q. split; [apply in_app_iff; now right|assumption]. }
  now apply Hrect.
Qed.

(** C36: everything but the outline and the components stays; the components are gone. *)
Theorem C36_frame : forall fuel rects g g' rs, flat fuel rects g = Some (Ok (g', rs)) ->
  g_anchors g' = g_anchors g /\ g_guidelines g' = g_guidelines g /\ g_images g' = g_images g /\
  g_width g' = g_width g /\ g_unicode g' = g_unicode g /\ g_name g' = g_name g /\ g_note g' = g_note g /\
  g_filename g' = g_filename g /\ g_lib g' = g_lib g /\
  cs_vec (g_components g') = [] /\ cs_root (g_components g') = [] /\ cs_uniques (g_components g') = [] /\
  match rects, rs with
  | None, None => True
  | Some _, Some rl => map r_name rl = map c_base (cs_vec (g_components g))
  | _, _ => False
  end.
Proof.
  intros fuel rects g g' rs. unfold flattened. destruct (forest fuel (g_components g)) as [[f| |]|] eqn:E; try discriminate.
  destruct (flatten_forest_snd f []) as (fs & HL & HS). destruct (flatten_forest f []) as [o rl]. cbn [snd] in HS. intros H. injection H as <- <-.
  cbn. repeat (split; [reflexivity|]). destruct rects; [|exact I]. subst rl. apply forest_ok in E. clear -E HL. revert fs HL.
  generalize dependent (cs_vec (g_components g)). induction f as [|t f IH]; intros rs E fs HL.
  - inversion E. reflexivity.
  - destruct fs as [|fi fs]; [discriminate|]. inversion E as [|r ? rs' ? Hr Hrs]; subst. cbn [combine map fst snd]. f_equal; [|apply IH; [assumption|now injection HL]].
    apply resolves_inv in Hr as (c & ts & -> & Hl & _). clear -Hl. unfold flatten_tree. cbn [cdata cchildren].
    destruct (apply_component_rect c [] _ fi) as [f1 b1]. destruct (apply_back _ _ b1 f1) as [f2 [[[x1 x2] x3] x4]]. cbn [snd r_name].
    unfold to_component in Hl. repeat match type of Hl with bind ?x _ = Ok c => destruct x eqn:?; cbn [bind] in Hl; try discriminate end. injection Hl as <-. reflexivity.
Qed.
End Component.
Print Assumptions C31_terminates.
Print Assumptions C31_result_is_definite.
Print Assumptions C32_resolved_soundly.
Print Assumptions C32_resolved_exactly.
Print Assumptions C32_cycle_never_succeeds.
Print Assumptions C32_cycle_only_if_same_name.
Print Assumptions C32_cycle_only_if_cycle.
Print Assumptions C32_cycle_iff.
Print Assumptions C34_matrices_inside_out.
Print Assumptions C33_what_is_lost.
Print Assumptions C33_all_contours_partial.
Print Assumptions C34_exact_product.
Print Assumptions C32_read_not_seen.
Print Assumptions C35_rect_exact.
Print Assumptions C35_rect_bounds_partial.
Print Assumptions C36_frame.

(** A small font: `base` has a contour; `once` includes it, moved by (10, 0), and has no contour;
    `twice` includes `once`, moved by (0, 20), and has a contour of its own; `thrice` includes
    `twice`; `plain` includes `base` where it is; `this` and `that`
    include each other. *)
Definition pt (x y : string) : node := NElem (Element (lit "point") [(lit "x", lit x); (lit "y", lit y); (lit "type", lit "line")] []).
Definition triangle : node := NElem (Element (lit "contour") [] [pt "1" "2"; pt "5" "2"; pt "5" "7"]).
Definition inc (base x y : string) : node :=
  NElem (Element (lit "component") [(lit "base", lit base); (lit "xOffset", lit x); (lit "yOffset", lit y)] []).
Definition doc (name : string) (ch : list node) : element :=
  Element (lit "glyph") [(lit "name", lit name); (lit "format", lit "2")] [NElem (Element (lit "outline") [] ch)].
Definition font (p : path) : option element :=
  match p with
  | [d; f] =>
      if negb (str_eqb d (lit "glyphs")) then None
      else if str_eqb f (lit "base.glif") then Some (doc "base" [triangle])
      else if str_eqb f (lit "once.glif") then Some (doc "once" [inc "base" "10" "0"])
      else if str_eqb f (lit "twice.glif") then Some (doc "twice" [triangle; inc "once" "0" "20"])
      else if str_eqb f (lit "thrice.glif") then Some (doc "thrice" [inc "twice" "0" "0"; inc "base" "0" "0"])
      else if str_eqb f (lit "plain.glif") then Some (doc "plain" [inc "base" "0" "0"])
      else if str_eqb f (lit "this.glif") then Some (doc "this" [inc "that" "0" "0"])
      else if str_eqb f (lit "that.glif") then Some (doc "that" [inc "this" "0" "0"])
      else None
  | _ => None
  end.
Definition nopl : plistlib unit := mkPlist unit (fun _ => PlBad) (fun _ => None).
Definition glyph_of (name : string) : res (glif unit unit) :=
  read_from_filename rust_num tt nopl element font Some Pedantry.pedantry_default [lit "glyphs"; lit name].
Definition flat_of (name : string) : option (res (list (list (f32 * f32)) * option (list comp_rect))) :=
  match glyph_of name with
  | Ok g =>
      match flattened rust_num tt nopl font Some 10 (Some []) g with
      | Some (Ok (g', rs)) => Some (Ok (match g_outline g' with Some o => map (map (fun p => (px p, py p))) o | None => [] end, rs))
      | Some (Err e) => Some (Err e)
      | Some Panic => Some Panic
      | None => None
      end
  | Err e => Some (Err e)
  | Panic => Some Panic
  end.
Notation "'i32' z" := (f32_of_Z z) (at level 5, z at level 0, only parsing).

(** The hypotheses of C31 and C32 are met by a font with a cycle and one without. *)
Example C31_case : exists texts, forall p x, font p = Some x -> In x texts.
Proof.
  exists [doc "base" [triangle]; doc "once" [inc "base" "10" "0"]; doc "twice" [triangle; inc "once" "0" "20"];
    doc "thrice" [inc "twice" "0" "0"; inc "base" "0" "0"]; doc "plain" [inc "base" "0" "0"]; doc "this" [inc "that" "0" "0"]; doc "that" [inc "this" "0" "0"]].
  intros p x H. unfold font in H. destruct p as [|d [|f [|? ?]]]; try congruence.
  destruct (negb _); [congruence|].
  repeat match type of H with (if ?b then _ else _) = _ => destruct b; [injection H as <-; cbn [In]; tauto|] end. congruence.
Qed.
Example C32_case_plain : forall g, glyph_of "this.glif" = Ok g ->
  plain_below (to_component rust_num tt nopl font Some) (cs_vec (g_components g)) /\ cyclic (to_component rust_num tt nopl font Some) (cs_vec (g_components g)).
Proof.
  intros g Hg. split.
  - intros r0 r _ H. apply includes_deep_reaches in H as (x & H1 & H2).
    assert (forall a b, includes (to_component rust_num tt nopl font Some) a b -> plain_name (c_base b)) as X.
    { clear. intros a b (c & Hl & Hi). unfold to_component in Hl. destruct (c_filename a) as [p|]; cbn [ok_or bind] in Hl; [|discriminate].
      destruct (font p) as [e|] eqn:E; cbn [ok_or bind] in Hl; [|discriminate]. unfold font in E. destruct p as [|d [|f [|? ?]]]; try congruence.
      destruct (negb _); [congruence|].
      repeat match type of E with (if ?b then _ else _) = _ => destruct b;
        [injection E as <-;
         match type of Hl with bind (read_element ?A ?B ?C ?D ?F) _ = _ => let v := eval vm_compute in (read_element A B C D F) in change (read_element A B C D F) with v in Hl end;
         cbn [bind] in Hl; injection Hl as <-; unfold parts in Hi; cbn [cp_glif g_components cs_vec map component_set_file_name In] in Hi; repeat destruct Hi as [<-|Hi]; try destruct Hi; cbn [c_base]; intros Hx; repeat destruct Hx as [Hx|Hx]; try discriminate; assumption|] end.
      congruence. }
    revert x H1 H2. intros x H1 H2. revert r0 H1. induction H2 as [z|z w v Hzw _ IH]; intros r0 H1; [now apply (X r0)|]. now apply (IH z).
  - vm_compute in Hg. injection Hg as <-. eexists _, _, _. split; [left; reflexivity|]. split; [apply rt1n_trans with (2 := rt1n_refl _ _ _); eexists; split; [vm_compute; reflexivity|left; reflexivity]|].
    split; [|split; [|]].
    + eapply t1n_trans; [eexists; split; [vm_compute; reflexivity|left; reflexivity]|].
      apply t1n_step. eexists; split; [vm_compute; reflexivity|left; reflexivity].
    + reflexivity.
    + reflexivity.
Qed.
Example C32_case_cycle : exists base from, flat_of "this.glif" = Some (Err (ECyclical base from (lit "this"))) /\ base = lit "this".
Proof. eexists _, _. split; vm_compute; reflexivity. Qed.
(** Sharing is not a cycle: `thrice` reaches `base` twice. *)
Example C32_case_shared : exists o rs, flat_of "thrice.glif" = Some (Ok (o, Some rs)) /\ List.length rs = 2 /\ List.length o = 2.
Proof. eexists _, _. split; [vm_compute; reflexivity|split; reflexivity]. Qed.

(** C32 as stated is false for names with path separators: `top` includes `a/b` in the file
    a/b.glif, which includes `a/b` in the file a/a/b.glif, which includes nothing. *)
Definition nested_font (p : path) : option element :=
  match p with
  | [f] =>
      if str_eqb f (lit "top.glif") then Some (doc "top" [inc "a/b" "0" "0"])
      else if str_eqb f (lit "mid.glif") then Some (doc "mid" [inc "top" "0" "0"])
      else None
  | [d; f] => if str_eqb d (lit "a") && str_eqb f (lit "b.glif") then Some (doc "a/b" [inc "a/b" "0" "0"]) else None
  | [d; e; f] => if str_eqb d (lit "a") && str_eqb e (lit "a") && str_eqb f (lit "b.glif") then Some (doc "a/b" []) else None
  | _ => None
  end.
Theorem C32_cycle_only_if_cycle_refuted :
  exists (g : glif unit unit) base from root t,
    read_from_filename rust_num tt nopl element nested_font Some Pedantry.pedantry_default [lit "mid.glif"] = Ok g /\
    build_forest rust_num tt nopl nested_font Some 10 (g_components g) = Some (Err (ECyclical base from root)) /\
    Forall2 (resolves (to_component rust_num tt nopl nested_font Some)) (cs_vec (g_components g)) [t] /\
    ~ cyclic (to_component rust_num tt nopl nested_font Some) (cs_vec (g_components g)).
Proof.
  assert (exists (g : glif unit unit) base from root, read_from_filename rust_num tt nopl element nested_font Some Pedantry.pedantry_default [lit "mid.glif"] = Ok g /\
    build_forest rust_num tt nopl nested_font Some 10 (g_components g) = Some (Err (ECyclical base from root)) /\
    exists t, Forall2 (resolves (to_component rust_num tt nopl nested_font Some)) (cs_vec (g_components g)) [t]) as (g & base & from & root & H1 & H2 & t & H3).
  { eexists _, _, _, _. split; [vm_compute; reflexivity|]. split; [vm_compute; reflexivity|]. eexists.
    cbn [g_components cs_vec].
    repeat match goal with
    | |- Forall2 _ _ _ => constructor
    | |- resolves ?ld ?r _ =>
        let v := eval vm_compute in (ld r) in
        match v with Ok ?c => apply (resolves_node ld r c); [vm_compute; reflexivity|cbn [parts cp_glif g_components cs_vec]] end
    end. }
  exists g, base, from, root, t. split; [assumption|]. split; [assumption|]. split; [assumption|].
  intros (r0 & r & r' & Hi & Hr & Hd & _ & Hf). inversion H3 as [|x t0 l l0 Hx Hl E1 E2]; subst. inversion Hl; subst.
  match goal with H : _ :: [] = cs_vec _ |- _ => rewrite <- H in Hi | H : cs_vec _ = _ |- _ => rewrite H in Hi end.
  destruct Hi as [<-|[]].
  destruct (resolves_reaches _ _ _ _ _ _ _ _ Hx Hr) as (t' & Ht' & _). eapply resolves_acyclic; eassumption.
Qed.
Print Assumptions C32_cycle_only_if_cycle_refuted.

(** C33 as stated is false: the contour of `twice` itself is lost, and so is the contour three
    levels below `thrice` (through `twice` and `once`). *)
Theorem C33_all_contours_refuted :
  exists (g : glif unit unit) g' rs c, glyph_of "twice.glif" = Ok g /\
    flattened rust_num tt nopl font Some 10 None g = Some (Ok (g', rs)) /\
    g_outline g = Some [c] /\ exists o, g_outline g' = Some o /\ List.length o = 1 /\ ~ In c o.
Proof.
  eexists _, _, _, _. split; [vm_compute; reflexivity|]. split; [vm_compute; reflexivity|]. split; [reflexivity|].
  eexists. split; [reflexivity|]. split; [reflexivity|]. intros [H|[]]. discriminate.
Qed.
Print Assumptions C33_all_contours_refuted.
Theorem C33_third_level_refuted :
  exists (g : glif unit unit) g' rs ts, glyph_of "thrice.glif" = Ok g /\ contours_of g = [] /\
    flattened rust_num tt nopl font Some 10 None g = Some (Ok (g', rs)) /\
    Forall2 (resolves (to_component rust_num tt nopl font Some)) (cs_vec (g_components g)) ts /\
    List.length (glyph_contours g ts) = 3 /\ exists o, g_outline g' = Some o /\ List.length o = 2.
Proof.
  assert (exists g, glyph_of "thrice.glif" = Ok g) as (g & Hg) by (eexists; vm_compute; reflexivity).
  assert (exists ts, build_forest rust_num tt nopl font Some 10 (g_components g) = Some (Ok ts) /\ List.length (glyph_contours g ts) = 3) as (ts & Hts & Hlen).
  { vm_compute in Hg. injection Hg as <-. eexists. split; [vm_compute; reflexivity|]. vm_compute. reflexivity. }
  assert (cs_uniques (g_components g) = []) as Hu by (vm_compute in Hg; now injection Hg as <-).
  assert (contours_of g = []) as Hc by (vm_compute in Hg; now injection Hg as <-).
  assert (exists g' rs, flattened rust_num tt nopl font Some 10 None g = Some (Ok (g', rs)) /\ exists o, g_outline g' = Some o /\ List.length o = 2) as (g' & rs & Hf & Ho).
  { vm_compute in Hg. injection Hg as <-. eexists _, _. split; [vm_compute; reflexivity|]. eexists. split; reflexivity. }
  exists g, g', rs, ts. repeat (split; [assumption|]). split; [|auto]. now apply (C32_resolved_soundly rust_num tt nopl font Some _ 10).
Qed.
Print Assumptions C33_third_level_refuted.
(** The restricted theorem applies to `once`, whose only contour is the moved triangle. *)
Example C33_case : exists (g : glif unit unit), glyph_of "once.glif" = Ok g /\ contours_of g = [] /\ cs_uniques (g_components g) = [] /\
  flat_of "once.glif" = Some (Ok ([[(i32 11, i32 2); (i32 15, i32 2); (i32 15, i32 7)]]%Z,
    Some [mkRect (i32 1) (i32 2) (i32 5) (i32 7) (lit "base")]%Z)).
Proof. eexists. repeat split; vm_compute; reflexivity. Qed.
(** Two levels: the inner matrix first, then the outer (a quarter turn after a move). *)
Example C34_case : let mv := mkZ 1 0 0 1 10 0 in let turn := mkZ 0 1 (-1) 0 0 0 in
  fits_all [mv; turn] (1, 2)%Z /\ zapply (fold_left zthen [mv; turn] zid) (1, 2)%Z = (-2, 11)%Z /\
  is_zaffine (mkAffine (f64_of_Z 0) (f64_of_Z 1) (f64_of_Z (-1)) (f64_of_Z 0) (f64_of_Z 0) (f64_of_Z 0)) turn /\ is_int32 (f32_of_Z 2) 2.
Proof.
  cbv zeta. split; [|split; [reflexivity|split]].
  - cbn. unfold fits, small64, small32. cbn. lia.
  - repeat split; try reflexivity.
  - split; reflexivity.
Qed.

(** C35 as stated is false: the rectangle reported for a moved component does not contain its
    points. *)
Theorem C35_rect_bounds_refuted :
  exists o r p, flat_of "once.glif" = Some (Ok (o, Some [r])) /\ In p (concat o) /\ flt (r_maxx r) (fst p) = true.
Proof.
  eexists _, _, (i32 11, i32 2)%Z. split; [vm_compute; reflexivity|]. split; [left; vm_compute; reflexivity|]. vm_compute. reflexivity.
Qed.
Print Assumptions C35_rect_bounds_refuted.
(** The restricted theorem applies to `plain`. *)
Example C35_case : exists g r, glyph_of "plain.glif" = Ok g /\ cs_vec (g_components g) = [r] /\ cs_uniques (g_components g) = [] /\
  forall c, to_component rust_num tt nopl font Some r = Ok c -> parts c = [] /\ own_contours c <> [] /\
    forall p, In p (concat (own_contours c)) -> numeric p /\ apply_xy (cp_matrix c) (px p) (py p) = (px p, py p).
Proof.
  eexists _, _. split; [vm_compute; reflexivity|]. split; [reflexivity|]. split; [reflexivity|]. intros c H. vm_compute in H. injection H as <-.
  split; [reflexivity|]. split; [discriminate|]. intros p [<-|[<-|[<-|[]]]]; (split; [split; reflexivity|vm_compute; reflexivity]).
Qed.
