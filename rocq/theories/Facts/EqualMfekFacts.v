(** Comparing MFEK glyphs. *)
Require Import Coq.Lists.List Coq.NArith.NArith Coq.ZArith.ZArith Coq.Bool.Bool Coq.Arith.Arith Coq.QArith.QArith Coq.Floats.SpecFloat Coq.micromega.Lia.
Require Import Verif.Model.Base Verif.Model.Text Verif.Model.Float Verif.Model.Num Verif.Model.RustNum Verif.Model.Point
  Verif.Model.Contour Verif.Model.Names Verif.Model.Color Verif.Model.Xml Verif.Model.Parts Verif.Model.Component
  Verif.Model.Mpoint Verif.Model.Mfek Verif.Model.Serde Verif.Model.Equal Verif.Model.EqualMfek
  Verif.Spec.GlyphSpec Verif.Spec.OpenSpec Verif.Spec.EqualSpec Verif.Spec.EqualMfekSpec Verif.Spec.InteropSpec Verif.Spec.SerdeSpec Verif.Spec.AccuracySpec Verif.Spec.MfekSpec Verif.Spec.RoundSpec
  Verif.Facts.NamesFacts Verif.Facts.EqualFacts Verif.Facts.SerdeFacts
  Verif.Facts.ExactFacts Verif.Facts.ValueFacts Verif.Facts.RoundFacts Verif.Facts.ArithFacts Verif.Facts.InteropFacts Verif.Facts.KurboFacts.
Import ListNotations.
Local Open Scope list_scope.
Local Open Scope nat_scope.

Lemma list_feq_decides : decides (list_eqb feq) (Forall2 same_float).
Proof. apply list_decides, feq_decides. Qed.
Lemma opt_N_decides : decides (opt_eqb N.eqb) eq.
Proof. intros a b. rewrite (opt_decides _ _ N_decides a b). apply both_eq_iff. Qed.
Lemma list_N_decides : decides (list_eqb N.eqb) eq.
Proof. intros a b. rewrite (list_decides _ _ N_decides a b). apply Forall2_eq_iff. Qed.
Ltac enum := intros [] []; cbn; split; (discriminate || reflexivity).
Lemma join_decides : decides join_eqb eq. Proof. enum. Qed.
Lemma cap_decides : decides cap_eqb eq. Proof. enum. Qed.
Lemma interpolation_decides : decides interpolation_eqb eq. Proof. enum. Qed.
Lemma copies_decides : decides copies_eqb eq. Proof. enum. Qed.
Lemma stretch_decides : decides stretch_eqb eq. Proof. enum. Qed.
Lemma hkind_decides : decides hkind_eqb eq. Proof. enum. Qed.
Lemma lop_decides : decides (opt_eqb layer_operation_eqb) eq.
Proof.
  assert (decides layer_operation_eqb eq) as H by enum. intros a b. rewrite (opt_decides _ _ H a b). apply both_eq_iff.
Qed.

Lemma F2_cons {A B} (R : A -> B -> Prop) a b l m : Forall2 R (a :: l) (b :: m) <-> R a b /\ Forall2 R l m.
Proof. split; [inversion 1; auto|intros []; now constructor]. Qed.
Lemma F2_nil {A B} (R : A -> B -> Prop) : Forall2 R [] [] <-> True.
Proof. split; [trivial|constructor]. Qed.
Lemma F2_app {A B} (R : A -> B -> Prop) l l' m m' : length l = length m -> (Forall2 R (l ++ l') (m ++ m') <-> Forall2 R l m /\ Forall2 R l' m').
Proof.
  revert m. induction l as [|x l IH]; intros [|y m]; cbn; try discriminate.
  - intros _. rewrite F2_nil. tauto.
  - intros [= E]. rewrite !F2_cons, (IH m E). tauto.
Qed.
Lemma F2_length {A B} (R : A -> B -> Prop) l m : Forall2 R l m -> length l = length m.
Proof. induction 1; cbn; congruence. Qed.

Lemma vws_decides a b : vws_eqb a b = true <-> Forall2 same_float (vws_floats a) (vws_floats b) /\ vws_rest a = vws_rest b.
Proof.
  unfold vws_eqb, vws_floats, vws_rest. rewrite !andb_true_iff.
  rewrite (join_decides (v_join a)), (cap_decides (v_cap_start a)), (cap_decides (v_cap_end a)),
    (bool_decides (v_remove_internal a)), (bool_decides (v_remove_external a)).
  assert (list_eqb vws_handle_eqb (v_handles a) (v_handles b) = true <->
    Forall2 same_float (flat_map (fun h => [vh_left h; vh_right h; vh_tangent h]) (v_handles a))
      (flat_map (fun h => [vh_left h; vh_right h; vh_tangent h]) (v_handles b)) /\
    map vh_interpolation (v_handles a) = map vh_interpolation (v_handles b)) as ->.
  { generalize (v_handles a) (v_handles b). clear. intros l; induction l as [|x l IH]; intros [|y m]; cbn [list_eqb flat_map map app].
    - rewrite F2_nil. tauto.
    - split; [discriminate|intros [H _]; inversion H].
    - split; [discriminate|intros [H _]; inversion H].
    - fold (list_eqb vws_handle_eqb). unfold vws_handle_eqb at 1. rewrite !andb_true_iff, (IH m), !F2_cons, (feq_decides (vh_left x)), (feq_decides (vh_right x)),
        (feq_decides (vh_tangent x)), (interpolation_decides (vh_interpolation x)).
      split; [intros [[[[]]]]|intros [H E]; injection E as E1 E2; tauto].
      repeat split; try tauto. f_equal; tauto. }
  split; [intros [[[[[[]]]]]]; split; [tauto|]; congruence|intros [H E]; injection E as E1 E2 E3 E4 E5 E6; tauto].
Qed.
Lemma cull_decides : decides cull_eqb (fun a b => Forall2 same_float [dc_width a; dc_area_cutoff a] [dc_width b; dc_area_cutoff b]).
Proof.
  intros a b. unfold cull_eqb. rewrite andb_true_iff, (feq_decides (dc_width a)), (feq_decides (dc_area_cutoff a)), !F2_cons, F2_nil. tauto.
Qed.
Lemma dash_decides a b : dash_eqb a b = true <-> Forall2 same_float (dash_floats a) (dash_floats b) /\ dash_rest a = dash_rest b.
Proof.
  unfold dash_eqb, dash_floats, dash_rest. rewrite !andb_true_iff.
  rewrite (feq_decides (d_stroke_width a)), (opt_decides _ _ cull_decides (d_cull a)), (list_feq_decides (d_desc a)),
    (bool_decides (d_include_last_path a)), (N_decides (d_paint_join a)), (N_decides (d_paint_cap a)), F2_cons.
  destruct (d_cull a) as [x|], (d_cull b) as [y|]; cbn [both cull_floats option_map app].
  - rewrite !F2_cons, F2_nil. split.
    + intros [[[[[A (B & C & _)] D] E] F] G]. repeat split; try tauto. congruence.
    + intros [(A & B & C & D) E]. injection E as E1 E2 E3. tauto.
  - split; [tauto|]. intros [_ E]. discriminate E.
  - split; [tauto|]. intros [_ E]. discriminate E.
  - split; [intros [[[[[]]]]]; repeat split; try tauto; congruence|]. intros [[A B] E]. injection E as E1 E2 E3. tauto.
Qed.
Lemma subdivide_decides a b : subdivide_eqb a b = true <->
  Forall2 same_float (subdivide_floats a) (subdivide_floats b) /\ subdivide_rest a = subdivide_rest b.
Proof.
  destruct a as [|n|x], b as [|m|y]; cbn; try (split; [discriminate|intros [_ E]; discriminate E]); rewrite ?F2_cons, ?F2_nil.
  - tauto.
  - rewrite N.eqb_eq. split; [intros ->; tauto|]. intros [_ E]. now injection E.
  - rewrite (feq_decides x y). tauto.
Qed.
Lemma culling_decides a b : culling_eqb a b = true <->
  Forall2 same_float (culling_floats a) (culling_floats b) /\ culling_rest a = culling_rest b.
Proof.
  destruct a as [| |x x'], b as [| |y y']; cbn; try (split; [discriminate|intros [_ E]; discriminate E]); rewrite ?F2_cons, ?F2_nil.
  - tauto.
  - tauto.
  - rewrite andb_true_iff, (feq_decides x y), (feq_decides x' y'). tauto.
Qed.
Lemma subdivide_rest_length a b : subdivide_rest a = subdivide_rest b -> length (subdivide_floats a) = length (subdivide_floats b).
Proof. destruct a, b; cbn; (discriminate || reflexivity). Qed.
Lemma culling_rest_length a b : culling_rest a = culling_rest b -> length (culling_floats a) = length (culling_floats b).
Proof. destruct a, b; cbn; (discriminate || reflexivity). Qed.
Lemma pap_decides {C} (eqb : C -> C -> bool) (a b : pap C) : pap_eqb eqb a b = true <->
  list_eqb eqb (pp_pattern a) (pp_pattern b) = true /\ Forall2 same_float (pap_floats a) (pap_floats b) /\ pap_rest a = pap_rest b.
Proof.
  unfold pap_eqb, pap_floats, pap_rest. rewrite !andb_true_iff.
  rewrite (copies_decides (pp_copies a)), subdivide_decides, culling_decides, (bool_decides (pp_is_vertical a)), (stretch_decides (pp_stretch a)),
    (feq_decides (pp_spacing a)), (bool_decides (pp_simplify a)), (feq_decides (pp_normal_offset a)), (feq_decides (pp_tangent_offset a)),
    (feq_decides (fst _)), (feq_decides (snd _)), (bool_decides (pp_center_pattern a)), (bool_decides (pp_two_pass_culling a)),
    (bool_decides (pp_reverse_path a)), (bool_decides (pp_reverse_culling a)), (bool_decides (pp_warp_pattern a)), (bool_decides (pp_split_path a)).
  split.
  - intros H. split; [tauto|]. split; [|decompose [and] H; congruence].
    rewrite F2_app by (apply subdivide_rest_length; tauto). cbn [app]. rewrite !F2_cons. tauto.
  - intros (H & F & E). injection E as E1 E2 E3 E4 E5 E6 E7 E8 E9 E10 E11 E12.
    rewrite F2_app in F by (now apply subdivide_rest_length). cbn [app] in F. rewrite !F2_cons in F. tauto.
Qed.
Lemma affine_decides a b : affine_eqb a b = true <-> Forall2 same_float (affine_floats a) (affine_floats b).
Proof. apply list_feq_decides. Qed.
Lemma rect_decides : decides rect_eqb same_rect.
Proof.
  intros a b. unfold rect_eqb, same_rect, rect_floats. rewrite !andb_true_iff, (feq_decides (r_minx a)), (feq_decides (r_miny a)),
    (feq_decides (r_maxx a)), (feq_decides (r_maxy a)), (str_decides (r_name a)), !F2_cons, F2_nil. tauto.
Qed.
Lemma pair_eqb_eq a b : pair_eqb a b = true <-> a = b.
Proof.
  unfold pair_eqb. rewrite andb_true_iff, !N.eqb_eq. destruct a, b; cbn. split; [intros []; congruence|]. now intros [= -> ->].
Qed.
Lemma selected_decides a b : NoDup a -> NoDup b -> (selected_eqb a b = true <-> forall s, In s a <-> In s b).
Proof.
  intros Ha Hb. unfold selected_eqb. rewrite andb_true_iff, Nat.eqb_eq, forallb_forall.
  assert ((forall x, In x a -> existsb (pair_eqb x) b = true) <-> incl a b) as ->.
  { unfold incl. split; intros H x Hx; specialize (H x Hx).
    - apply existsb_exists in H as (y & Hy & E). apply pair_eqb_eq in E. now subst.
    - apply existsb_exists. exists x. split; [exact H|now apply pair_eqb_eq]. }
  split.
  - intros [E H] s. split; [apply H|]. apply (NoDup_length_incl Ha); [lia|exact H].
  - intros H. assert (incl a b) as I1 by (intros s; apply H). assert (incl b a) as I2 by (intros s; apply H).
    split; [|exact I1]. apply Nat.le_antisymm; now apply NoDup_incl_length.
Qed.
(** Lists whose members are compared as a relation says. *)
Lemma list_decides_in {A} (eqb : A -> A -> bool) R (l m : list A) :
  (forall a b, In a l -> In b m -> (eqb a b = true <-> R a b)) -> (list_eqb eqb l m = true <-> Forall2 R l m).
Proof.
  revert m. induction l as [|x l IH]; intros [|y m] H; cbn [list_eqb].
  - split; [constructor|reflexivity].
  - split; [discriminate|inversion 1].
  - split; [discriminate|inversion 1].
  - fold (list_eqb eqb). rewrite andb_true_iff, F2_cons, (H x y), (IH m); [tauto| |now left|now left].
    intros a b Ha Hb. apply H; now right.
Qed.

Section Decides.
Context (L : numlib) {PD : Type} (pd_eqb : PD -> PD -> bool) (os_eqb : osstr -> osstr -> bool).
Context (num : iof -> iof -> Prop) (data : PD -> PD -> Prop) (os : osstr -> osstr -> Prop).
Context (Hnum : decides (iof_eqb L) num) (Hpd : decides pd_eqb data) (Hos : decides os_eqb os).

Lemma qpoint_decides : decides (qpoint_eqb pd_eqb) (same_qpoint data).
Proof.
  intros p q. unfold qpoint_eqb, same_qpoint. rewrite !andb_true_iff.
  rewrite (feq_decides (q_x p)), (feq_decides (q_y p)), (handle_decides (q_a p)), (opt_str_decides (q_name p)),
    (ptype_decides (q_ptype p)), (bool_decides (q_smooth p)), (opt_decides _ _ Hpd (q_data p)). tauto.
Qed.
Lemma hpoint_decides : decides (hpoint_eqb pd_eqb) (same_hpoint data).
Proof.
  intros p q. unfold hpoint_eqb, same_hpoint. rewrite !andb_true_iff.
  rewrite (feq_decides (h_x p)), (feq_decides (h_y p)), (handle_decides (h_a p)), (handle_decides (h_b p)),
    (hkind_decides (h_kind p)), (bool_decides (h_smooth p)), (opt_decides _ _ Hpd (h_data p)). tauto.
Qed.
Lemma inner_decides : decides (inner_eqb pd_eqb) (same_inner data).
Proof.
  intros [c|c|c o] [d|d|d o']; cbn [inner_eqb same_inner]; try (split; [discriminate|contradiction]).
  - apply (list_decides _ _ (point_decides pd_eqb data Hpd)).
  - apply (list_decides _ _ qpoint_decides).
  - rewrite andb_true_iff, (list_decides _ _ hpoint_decides c d), (bool_decides o o'). tauto.
Qed.
Lemma mcontour_decides : decides (mcontour_eqb pd_eqb) (same_mcontour data).
Proof.
  intros a. induction a as [i o IH] using mcontour_nested. intros [i' o']. cbn [mcontour_eqb]. rewrite andb_true_iff, (inner_decides i i').
  destruct o as [[v|p|d]|], o' as [[v'|p'|d']|]; cbn [opt_eqb operations_eqb];
    try (split; [intros [_ E]; discriminate E|intros E; inversion E]).
  - rewrite vws_decides. split; [intros (A & B & C); now constructor|]. inversion 1; subst. tauto.
  - rewrite pap_decides, (list_decides_in _ (same_mcontour data)).
    + split; [intros (A & B & C & D); now constructor|]. inversion 1; subst. tauto.
    + intros c c' Hc _. apply (IH p c eq_refl Hc).
  - rewrite dash_decides. split; [intros (A & B & C); now constructor|]. inversion 1; subst. tauto.
  - split; [intros [A _]; now constructor|]. inversion 1; subst. tauto.
Qed.
Lemma placed_image_decides : decides (fun x y => image_eqb L os_eqb (fst x) (fst y) && affine_eqb (snd x) (snd y)) (same_placed_image num os).
Proof.
  intros x y. unfold same_placed_image. rewrite andb_true_iff, (image_decides L os_eqb num os Hnum Hos (fst x) (fst y)), affine_decides. tauto.
Qed.
Lemma layer_decides : decides (layer_eqb L pd_eqb os_eqb) (same_layer num data os).
Proof.
  intros a b. unfold layer_eqb, same_layer. rewrite !andb_true_iff.
  rewrite (str_decides (l_name a)), (bool_decides (l_visible a)), (opt_decides _ _ (color_decides L num Hnum) (l_color a)),
    (list_decides _ _ mcontour_decides (l_outline a)), (lop_decides (l_operation a)), (list_decides _ _ placed_image_decides (l_images a)). tauto.
Qed.
Lemma mglif_decides {H} (eqb : H -> H -> bool) (a b : mglif PD H) :
  NoDup (cs_uniques (mg_components a)) -> NoDup (cs_uniques (mg_components b)) ->
  (mglif_eqb L pd_eqb os_eqb eqb a b = true <->
   same_but_history num data os a b /\ list_eqb eqb (mg_history a) (mg_history b) = true).
Proof.
  intros Sa Sb. unfold mglif_eqb, same_but_history, components_eqb. rewrite !andb_true_iff.
  rewrite (list_decides _ _ layer_decides (mg_layers a)), (list_decides _ _ (anchor_decides pd_eqb data Hpd) (mg_anchors a)),
    (str_decides (cs_root _)), (list_decides _ _ (component_decides L num Hnum) (cs_vec _)), (set_decides _ _ Sa Sb),
    (opt_decides _ _ (list_decides _ _ (list_decides _ _ (point_decides pd_eqb data Hpd))) (mg_flattened a)),
    (opt_decides _ _ (list_decides _ _ rect_decides) (mg_component_rects a)),
    (list_decides _ _ (guideline_decides L pd_eqb num data Hnum Hpd) (mg_guidelines a)),
    (opt_N_decides (mg_width a)), (list_N_decides (mg_unicode a)), (str_decides (mg_name a)), (opt_str_decides (mg_note a)),
    (path_decides (mg_filename a)). tauto.
Qed.
Definition proper_entry (h : history PD) : Prop :=
  let 'HEntry _ _ _ _ _ sel m := h in (forall s, sel = Some s -> NoDup s) /\ proper_mfek m.
Lemma proper_history (m : mglif PD (history PD)) h : proper_mfek m -> In h (mg_history m) -> proper_entry h.
Proof. intros [_ H] I. destruct h as [d li ci pi gl sel m']. exact (H _ _ _ _ _ _ _ I). Qed.
Lemma entry_decides a b : proper_entry a -> proper_entry b -> (history_eqb L pd_eqb os_eqb a b = true <-> same_entry num data os a b).
Proof.
  revert b. induction a as [d li ci pi gl sel m IH] using history_nested. intros [d' li' ci' pi' gl' sel' m'] [Sa Pa] [Sb Pb].
  cbn [history_eqb]. rewrite !andb_true_iff.
  rewrite (str_decides d), (opt_N_decides li), (opt_N_decides ci), (opt_N_decides pi),
    (list_decides _ _ (guideline_decides L pd_eqb num data Hnum Hpd) gl).
  rewrite mglif_decides by (now destruct Pa, Pb).
  rewrite (list_decides_in _ (same_entry num data os)) by (intros h h' I I'; apply IH; eauto using proper_history).
  assert (opt_eqb selected_eqb sel sel' = true <-> both (fun s s' => forall x, In x s <-> In x s') sel sel') as ->.
  { destruct sel as [s|], sel' as [s'|]; cbn [opt_eqb both]; try tauto; try (split; [discriminate|contradiction]).
    apply selected_decides; [now apply Sa|now apply Sb]. }
  split.
  - intros [[[[[[-> ->] ->] ->] A] B] [C D]]. now constructor.
  - inversion 1; subst. tauto.
Qed.
Lemma mfek_decides a b : proper_mfek a -> proper_mfek b ->
  (mfekglif_eqb L pd_eqb os_eqb a b = true <-> same_mfek num data os a b).
Proof.
  intros Pa Pb. unfold mfekglif_eqb, same_mfek. rewrite mglif_decides by (now destruct Pa, Pb).
  rewrite (list_decides_in _ (same_entry num data os)); [tauto|]. intros h h' I I'. apply entry_decides; eauto using proper_history.
Qed.
End Decides.

(** ** An MFEK glyph and itself *)
Lemma floats_self l : Forall2 same_float l l <-> ~ In S754_nan l.
Proof.
  rewrite Forall2_self, Forall_forall. split.
  - intros H I. now apply H in I.
  - intros H f I. apply same_float_refl. now intros ->.
Qed.
Lemma not_in_flat_map {A B} (f : A -> list B) l x : ~ In x (flat_map f l) <-> Forall (fun a => ~ In x (f a)) l.
Proof.
  rewrite Forall_forall, in_flat_map. split.
  - intros H a I J. apply H. eauto.
  - intros H (a & I & J). exact (H a I J).
Qed.
Lemma Forall_iff {A} (P Q : A -> Prop) : (forall a, P a <-> Q a) -> forall l, Forall P l <-> Forall Q l.
Proof. intros H l. split; apply Forall_impl; intros a; apply H. Qed.
Lemma handle_self_nan h : same_handle h h <-> ~ In S754_nan (handle_floats h).
Proof. rewrite <- floats_self, Forall2_self. apply handle_self. Qed.
Lemma not_in_app {A} (x : A) l m : ~ In x (l ++ m) <-> ~ In x l /\ ~ In x m.
Proof. rewrite in_app_iff. tauto. Qed.

Section Self.
Context {PD : Type} (num : iof -> iof -> Prop) (data : PD -> PD -> Prop) (os : osstr -> osstr -> Prop).
Context (Rn : forall i, num i i <-> i <> IFloat S754_nan) (Rd : forall d, data d d) (Ro : forall o, os o o).

Lemma numbers_self l : Forall2 num l l <-> ~ In (IFloat S754_nan) l.
Proof.
  rewrite Forall2_self, Forall_forall. split.
  - intros H I. now apply H, Rn in I.
  - intros H f I. apply Rn. now intros ->.
Qed.
Lemma point_self (p : point PD) : same_point data p p <-> ~ In S754_nan (coordinates p).
Proof.
  unfold same_point, coordinates. fold (handle_floats (pa p)) (handle_floats (pb p)).
  rewrite !not_in_app, <- !handle_self_nan, <- floats_self, !F2_cons, F2_nil.
  assert (both data (pdata p) (pdata p)) by now apply both_refl. tauto.
Qed.
Lemma qpoint_self (p : qpoint PD) : same_qpoint data p p <-> ~ In S754_nan (qpoint_floats p).
Proof.
  unfold same_qpoint, qpoint_floats. rewrite !not_in_app, <- !handle_self_nan, <- floats_self, !F2_cons, F2_nil.
  assert (both data (q_data p) (q_data p)) by now apply both_refl. tauto.
Qed.
Lemma hpoint_self (p : hpoint PD) : same_hpoint data p p <-> ~ In S754_nan (hpoint_floats p).
Proof.
  unfold same_hpoint, hpoint_floats. rewrite !not_in_app, <- !handle_self_nan, <- floats_self, !F2_cons, F2_nil.
  assert (both data (h_data p) (h_data p)) by now apply both_refl. tauto.
Qed.
Lemma inner_self i : same_inner data i i <-> ~ In S754_nan (inner_floats i).
Proof.
  destruct i as [c|c|c o]; cbn [same_inner inner_floats]; rewrite Forall2_self, not_in_flat_map.
  - apply Forall_iff, point_self.
  - apply Forall_iff, qpoint_self.
  - rewrite (Forall_iff _ _ hpoint_self). tauto.
Qed.
Lemma mcontour_self c : same_mcontour data c c <-> ~ nan_in_contour c.
Proof.
  induction c as [i o IH] using mcontour_nested.
  assert (~ In S754_nan (inner_floats i ++ operation_floats o) <-> same_inner data i i /\ Forall2 same_float (operation_floats o) (operation_floats o)) as E
    by now rewrite not_in_app, inner_self, floats_self.
  assert (nan_in_contour (MC i o) <-> In S754_nan (inner_floats i ++ operation_floats o) \/
    exists p c, o = Some (OpPap p) /\ In c (pp_pattern p) /\ nan_in_contour c) as ->.
  { split; [inversion 1; subst; eauto 6|]. intros [H|(p & c & -> & I & N)]; [now constructor|]. now apply (float_in_pattern _ i p c). }
  destruct o as [[v|p|d]|]; cbn [operation_floats] in *.
  - split; [inversion 1; subst; intros [H'|(p & c & D & _)]; [now apply E in H'|discriminate]|].
    intros H. apply Decidable.not_or in H as [H _]. apply E in H as []. now constructor.
  - split.
    + inversion 1 as [| | |? ? ? ? A B _ D]; subst. intros [H'|(q & c & Q & I & N)]; [now apply E in H'|]. injection Q as <-.
      rewrite Forall2_self, Forall_forall in D. apply D in I as S. now apply (IH p c eq_refl I) in S.
    + intros H. apply Decidable.not_or in H as [H H']. apply E in H as [A B]. constructor; [exact A|exact B|reflexivity|].
      apply Forall2_self, Forall_forall. intros c I. apply (IH p c eq_refl I). intros N. apply H'. eauto.
  - split; [inversion 1; subst; intros [H'|(p & c & D & _)]; [now apply E in H'|discriminate]|].
    intros H. apply Decidable.not_or in H as [H _]. apply E in H as []. now constructor.
  - split; [inversion 1; subst; intros [H'|(p & c & D & _)]; [apply E in H'; [exact H'|split; [assumption|constructor]]|discriminate]|].
    intros H. apply Decidable.not_or in H as [H _]. apply E in H as []. now constructor.
Qed.
Lemma guideline_self (l : guideline PD) : same_guideline num data l l <-> ~ guideline_float S754_nan l.
Proof.
  unfold same_guideline, guideline_float. rewrite numbers_of_color_self.
  assert (Forall (fun i => num i i) (numbers_of_color (gl_color l)) <-> ~ In (IFloat S754_nan) (numbers_of_color (gl_color l))) as ->.
  { rewrite <- numbers_self. symmetry. apply Forall2_self. }
  assert (~ (In S754_nan [gl_x l; gl_y l] \/ In (IFloat S754_nan) (gl_angle l :: numbers_of_color (gl_color l))) <->
    ~ In S754_nan [gl_x l; gl_y l] /\ num (gl_angle l) (gl_angle l) /\ ~ In (IFloat S754_nan) (numbers_of_color (gl_color l))) as ->.
  { rewrite (Rn (gl_angle l)). cbn [In]. split; intuition congruence. }
  rewrite <- floats_self, !F2_cons, F2_nil. specialize (Rd (gl_data l)). tauto.
Qed.
Lemma color_self o : both (equal_color num) o o <-> ~ In (IFloat S754_nan) (numbers_of_color o).
Proof. rewrite numbers_of_color_self, <- numbers_self. symmetry. apply Forall2_self. Qed.
Lemma image_self x : same_placed_image num os x x <->
  ~ (In (IFloat S754_nan) (members (i_matrix (fst x)) ++ numbers_of_color (i_color (fst x))) \/ In S754_nan (affine_floats (snd x))).
Proof.
  unfold same_placed_image, same_image, equal_matrix. rewrite color_self, numbers_self, floats_self, in_app_iff.
  specialize (Ro (i_filename (fst x))). tauto.
Qed.
Lemma anchor_self (a : anchor PD) : same_anchor data a a <-> ~ In S754_nan [an_x a; an_y a].
Proof. unfold same_anchor. rewrite <- floats_self, !F2_cons, F2_nil. specialize (Rd (an_data a)). tauto. Qed.
Lemma component_self c : same_component num c c <-> ~ In (IFloat S754_nan) (members (c_matrix c)).
Proof. unfold same_component, equal_matrix. rewrite numbers_self. tauto. Qed.
Lemma rect_self r : same_rect r r <-> ~ In S754_nan (rect_floats r).
Proof. unfold same_rect. rewrite floats_self. tauto. Qed.
Lemma self_in {A} (R : A -> A -> Prop) (N : A -> Prop) : (forall a, R a a <-> ~ N a) -> forall l, Forall2 R l l <-> (forall a, In a l -> ~ N a).
Proof. intros H l. rewrite Forall2_self, Forall_forall. split; intros G a I; apply H; auto. Qed.
Lemma layer_self l : same_layer num data os l l <->
  (forall c, In c (l_outline l) -> ~ nan_in_contour c) /\ ~ In (IFloat S754_nan) (numbers_of_color (l_color l)) /\
  (forall x, In x (l_images l) ->
     ~ (In (IFloat S754_nan) (members (i_matrix (fst x)) ++ numbers_of_color (i_color (fst x))) \/ In S754_nan (affine_floats (snd x)))).
Proof.
  unfold same_layer. rewrite color_self, (self_in _ _ mcontour_self), (self_in _ _ image_self). tauto.
Qed.

(** NaN somewhere in the glyph, but not in its history. *)
Definition nan_now {H} (m : mglif PD H) : Prop :=
  (exists l c, In l (mg_layers m) /\ In c (l_outline l) /\ nan_in_contour c) \/
  (exists l, In l (mg_layers m) /\ In (IFloat S754_nan) (numbers_of_color (l_color l))) \/
  (exists l im a, In l (mg_layers m) /\ In (im, a) (l_images l) /\
    (In (IFloat S754_nan) (members (i_matrix im) ++ numbers_of_color (i_color im)) \/ In S754_nan (affine_floats a))) \/
  (exists a, In a (mg_anchors m) /\ In S754_nan [an_x a; an_y a]) \/
  (exists c, In c (cs_vec (mg_components m)) /\ In (IFloat S754_nan) (members (c_matrix c))) \/
  (exists o c p, mg_flattened m = Some o /\ In c o /\ In p c /\ In S754_nan (coordinates p)) \/
  (exists rs r, mg_component_rects m = Some rs /\ In r rs /\ In S754_nan (rect_floats r)) \/
  (exists l, In l (mg_guidelines m) /\ guideline_float S754_nan l).
Lemma now_self {H} (m : mglif PD H) : same_but_history num data os m m <-> ~ nan_now m.
Proof.
  unfold same_but_history. rewrite (self_in _ _ anchor_self), (self_in _ _ component_self), (self_in _ _ guideline_self), Forall2_self, Forall_forall.
  assert (both (Forall2 (Forall2 (same_point data))) (mg_flattened m) (mg_flattened m) <->
    ~ exists o c p, mg_flattened m = Some o /\ In c o /\ In p c /\ In S754_nan (coordinates p)) as ->.
  { destruct (mg_flattened m) as [o|]; cbn [both]; [|split; [intros _ (o & c & p & D & _); discriminate D|trivial]].
    rewrite Forall2_self, Forall_forall. split.
    - intros G (o' & c & p & [= <-] & I & J & N). specialize (G c I). rewrite (self_in _ _ point_self) in G. exact (G p J N).
    - intros G c I. apply (self_in _ _ point_self). intros p J N. apply G. eauto 8. }
  assert (both (Forall2 same_rect) (mg_component_rects m) (mg_component_rects m) <->
    ~ exists rs r, mg_component_rects m = Some rs /\ In r rs /\ In S754_nan (rect_floats r)) as ->.
  { destruct (mg_component_rects m) as [o|]; cbn [both]; [|split; [intros _ (o & c & D & _); discriminate D|trivial]].
    rewrite (self_in _ _ rect_self). split.
    - intros G (o' & r & [= <-] & I & N). exact (G r I N).
    - intros G r I N. apply G. eauto. }
  unfold nan_now. split.
  - intros (A & B & (_ & C & _) & D & E & F & _). intros [(l & c & I & J & N)|[(l & I & N)|[(l & im & a & I & J & N)|[(a & I & N)|[(c & I & N)|[G|[G|(l & I & N)]]]]]]].
    + apply A, layer_self in I as (I & _). exact (I c J N).
    + apply A, layer_self in I as (_ & I & _). exact (I N).
    + apply A, layer_self in I as (_ & _ & I). exact (I _ J N).
    + exact (B a I N).
    + exact (C c I N).
    + exact (D G).
    + exact (E G).
    + exact (F l I N).
  - intros G. split; [|split; [|split; [|split; [|split; [|split]]]]].
    + intros l I. apply layer_self. split; [|split].
      * intros c J N. apply G. left. eauto.
      * intros N. apply G. right; left. eauto.
      * intros [im a] J N. apply G. right; right; left. eauto 6.
    + intros a I N. apply G. do 3 right. left. eauto.
    + split; [reflexivity|]. split; [|reflexivity]. intros c I N. apply G. do 4 right. left. eauto.
    + intros N. apply G. do 5 right. now left.
    + intros N. apply G. do 6 right. now left.
    + intros l I N. apply G. do 7 right. eauto.
    + now repeat split.
Qed.
Definition entry_nan (h : history PD) : Prop :=
  let 'HEntry _ _ _ _ gl _ m := h in (exists l, In l gl /\ guideline_float S754_nan l) \/ nan_in_mfek m.
Lemma nan_in_mfek_cases (m : mglif PD (history PD)) : nan_in_mfek m <-> nan_now m \/ exists h, In h (mg_history m) /\ entry_nan h.
Proof.
  split.
  - intros [l c|l|l im a|a|c|o c p|rs r|l|d li ci pi gl sel m' l|d li ci pi gl sel m']; unfold nan_now.
    + left; left; eauto.
    + left; right; left; eauto.
    + left; do 2 right; left; eauto 6.
    + left; do 3 right; left; eauto.
    + left; do 4 right; left; eauto.
    + left; do 5 right; left; eauto 8.
    + left; do 6 right; left; eauto.
    + left; do 7 right; eauto.
    + right. exists (HEntry d li ci pi gl sel m'). split; [assumption|]. left. eauto.
    + right. exists (HEntry d li ci pi gl sel m'). split; [assumption|]. now right.
  - intros [[(l & c & I & J & N)|[(l & I & N)|[(l & im & a & I & J & N)|[(a & I & N)|[(c & I & N)|[(o & c & p & G & I & J & N)|[(rs & r & G & I & N)|(l & I & N)]]]]]]]|(h & I & N)].
    + eapply float_in_layer; eassumption.
    + eapply float_in_layer_color; eassumption.
    + eapply float_in_image; eassumption.
    + eapply float_in_anchor; eassumption.
    + eapply float_in_component; eassumption.
    + eapply float_in_flattened; eassumption.
    + eapply float_in_rect; eassumption.
    + eapply float_in_guideline; eassumption.
    + destruct h as [d li ci pi gl sel m']. destruct N as [(l & J & N)|N]; [eapply float_in_entry; eassumption|eapply float_in_past; eassumption].
Qed.
Lemma entry_self h : same_entry num data os h h <-> ~ entry_nan h.
Proof.
  induction h as [d li ci pi gl sel m IH] using history_nested. cbn [entry_nan]. rewrite nan_in_mfek_cases.
  assert (Forall2 (same_entry num data os) (mg_history m) (mg_history m) <-> ~ exists h, In h (mg_history m) /\ entry_nan h) as E.
  { rewrite Forall2_self, Forall_forall. split.
    - intros G (h & I & N). apply G in I as S. now apply (IH h I) in S.
    - intros G h I. apply (IH h I). eauto. }
  split.
  - inversion 1 as [? ? ? ? ? ? ? ? ? ? A B C D]; subst. rewrite (self_in _ _ guideline_self) in A. apply now_self in C. apply E in D.
    intros [(l & I & N)|[N|N]]; [exact (A l I N)|exact (C N)|exact (D N)].
  - intros G. constructor.
    + apply (self_in _ _ guideline_self). intros l I N. apply G. left. eauto.
    + apply both_refl. reflexivity.
    + apply now_self. tauto.
    + apply E. tauto.
Qed.
Lemma mfek_self m : same_mfek num data os m m <-> ~ nan_in_mfek m.
Proof.
  unfold same_mfek. rewrite now_self, (self_in _ _ entry_self), nan_in_mfek_cases. split.
  - intros [A B] [N|(h & I & N)]; [exact (A N)|exact (B h I N)].
  - intros G. split; [tauto|]. intros h I N. apply G. right. eauto.
Qed.
End Self.

(** ** The other laws *)
Lemma Forall2_sym_in {A} (R : A -> A -> Prop) l m : (forall a b, In a l -> R a b -> R b a) -> Forall2 R l m -> Forall2 R m l.
Proof.
  intros H F. induction F as [|x y l m Hx _ IH]; constructor; [apply H; [now left|exact Hx]|]. apply IH. intros a b I. apply H. now right.
Qed.
Section Symmetric.
Context {PD : Type} (num : iof -> iof -> Prop) (data : PD -> PD -> Prop) (os : osstr -> osstr -> Prop).
Context (Sn : forall i j, num i j -> num j i) (Sd : forall a b, data a b -> data b a) (So : forall a b, os a b -> os b a).

Lemma point_sym (p q : point PD) : same_point data p q -> same_point data q p.
Proof.
  intros (A & B & C & D & E & F & G & I). repeat split; auto using same_float_sym, same_handle_sym. revert I. now apply both_sym.
Qed.
Lemma inner_sym i i' : same_inner data i i' -> same_inner data i' i.
Proof.
  destruct i as [c|c|c o], i' as [c'|c'|c' o']; cbn; try contradiction.
  - apply Forall2_sym, point_sym.
  - apply Forall2_sym. intros p q (A & B & C & D & E & F & G). repeat split; auto using same_float_sym, same_handle_sym. revert G. now apply both_sym.
  - intros [H ->]. split; [|reflexivity]. revert H. apply Forall2_sym. intros p q (A & B & C & D & E & F & G).
    repeat split; auto using same_float_sym, same_handle_sym. revert G. now apply both_sym.
Qed.
Lemma floats_sym l m : Forall2 same_float l m -> Forall2 same_float m l.
Proof. apply Forall2_sym, same_float_sym. Qed.
Lemma mcontour_sym c c' : same_mcontour data c c' -> same_mcontour data c' c.
Proof.
  revert c'. induction c as [i o IH] using mcontour_nested. intros c' H.
  inversion H as [? ? A|? ? v v' A B C|? ? d d' A B C|? ? p p' A B C D]; subst; apply inner_sym in A.
  - now constructor.
  - apply floats_sym in B. now constructor.
  - apply floats_sym in B. now constructor.
  - apply floats_sym in B. constructor; auto. revert D. apply Forall2_sym_in. intros a b I. now apply (IH p a eq_refl I).
Qed.
Lemma color_sym a b : equal_color num a b -> equal_color num b a.
Proof. now apply Forall2_sym. Qed.
Lemma matrix_sym a b : equal_matrix num a b -> equal_matrix num b a.
Proof. now apply Forall2_sym. Qed.
Lemma guideline_sym (a b : guideline PD) : same_guideline num data a b -> same_guideline num data b a.
Proof.
  intros (A & B & C & D & E & F & G). repeat split; auto using same_float_sym. revert E. apply both_sym, color_sym.
Qed.
Lemma now_sym {H} (a b : mglif PD H) : same_but_history num data os a b -> same_but_history num data os b a.
Proof.
  intros (A & B & (C1 & C2 & C3) & D & E & F & G1 & G2 & G3 & G4 & G5). split; [|split; [|split; [|split; [|split; [|split]]]]].
  - revert A. apply Forall2_sym. intros x y (H1 & H2 & H3 & H4 & H5 & H6). repeat split; auto.
    + revert H3. apply both_sym, color_sym.
    + revert H4. apply Forall2_sym, mcontour_sym.
    + revert H6. apply Forall2_sym. intros u v [(J1 & J2 & J3 & J4) K]. split; [|now apply floats_sym].
      repeat split; auto; [now apply matrix_sym|]. revert J4. apply both_sym, color_sym.
  - revert B. apply Forall2_sym. intros x y (H1 & H2 & H3 & H4 & H5). repeat split; auto using same_float_sym.
  - split; [auto|]. split; [|intros s; symmetry; apply C3]. revert C2. apply Forall2_sym. intros x y (H1 & H2 & H3 & H4).
    repeat split; auto. now apply matrix_sym.
  - revert D. apply both_sym. intros ? ?. apply Forall2_sym. intros ? ?. apply Forall2_sym, point_sym.
  - revert E. apply both_sym. intros ? ?. apply Forall2_sym. intros x y [H1 H2]. split; [now apply floats_sym|auto].
  - revert F. apply Forall2_sym, guideline_sym.
  - auto.
Qed.
Lemma entry_sym h h' : same_entry num data os h h' -> same_entry num data os h' h.
Proof.
  revert h'. induction h as [d li ci pi gl sel m IH] using history_nested. intros h' H.
  inversion H as [? ? ? ? ? gl' ? sel' ? m' A B C D]; subst. constructor.
  - revert A. apply Forall2_sym, guideline_sym.
  - revert B. apply both_sym. intros s s' E x. symmetry. apply E.
  - now apply now_sym.
  - revert D. apply Forall2_sym_in. intros a b I. now apply IH.
Qed.
Lemma mfek_sym a b : same_mfek num data os a b -> same_mfek num data os b a.
Proof. intros [A B]. split; [now apply now_sym|]. revert B. apply Forall2_sym, entry_sym. Qed.
End Symmetric.

Lemma Forall2_trans_in {A} (R : A -> A -> Prop) l m n : (forall a b c, In a l -> In c n -> R a b -> R b c -> R a c) ->
  Forall2 R l m -> Forall2 R m n -> Forall2 R l n.
Proof.
  intros H F. revert n H. induction F as [|x y l m Hx _ IH]; intros n H G; inversion G; subst; constructor.
  - eapply H; [now left|now left|exact Hx|assumption].
  - apply IH; [|assumption]. intros a b c I J. apply H; now right.
Qed.
Section Transitive.
Context {PD : Type} (num : iof -> iof -> Prop) (data : PD -> PD -> Prop) (os : osstr -> osstr -> Prop).
Context (Td : forall a b c, data a b -> data b c -> data a c) (To : forall a b c, os a b -> os b c -> os a c).
(** Numbers of [l] and of [n] compare as they should. *)
Let fine (l n : list iof) := forall i j k, In i l -> In k n -> num i j -> num j k -> num i k.

Lemma numbers_trans l m n : fine l n -> Forall2 num l m -> Forall2 num m n -> Forall2 num l n.
Proof. apply Forall2_trans_in. Qed.
Lemma color_trans a b c : fine (numbers_of_color a) (numbers_of_color c) ->
  both (equal_color num) a b -> both (equal_color num) b c -> both (equal_color num) a c.
Proof.
  destruct a as [a|], b as [b|], c as [c|]; cbn [both numbers_of_color]; try tauto. apply numbers_trans.
Qed.
Lemma floats_trans l m n : Forall2 same_float l m -> Forall2 same_float m n -> Forall2 same_float l n.
Proof. apply Forall2_trans, same_float_trans. Qed.
Ltac floats := repeat (split; [eapply same_float_trans + eapply same_handle_trans; eassumption|]).
Lemma point_trans (p q r : point PD) : same_point data p q -> same_point data q r -> same_point data p r.
Proof.
  intros (A & B & C & D & E & F & G & I) (A' & B' & C' & D' & E' & F' & G' & I'). floats.
  repeat split; try congruence. revert I I'. now apply both_trans.
Qed.
Lemma qpoint_trans (p q r : qpoint PD) : same_qpoint data p q -> same_qpoint data q r -> same_qpoint data p r.
Proof.
  intros (A & B & C & D & E & F & G) (A' & B' & C' & D' & E' & F' & G'). floats.
  repeat split; try congruence. revert G G'. now apply both_trans.
Qed.
Lemma hpoint_trans (p q r : hpoint PD) : same_hpoint data p q -> same_hpoint data q r -> same_hpoint data p r.
Proof.
  intros (A & B & C & D & E & F & G) (A' & B' & C' & D' & E' & F' & G'). floats.
  repeat split; try congruence. revert G G'. now apply both_trans.
Qed.
Lemma inner_trans i j k : same_inner data i j -> same_inner data j k -> same_inner data i k.
Proof.
  destruct i as [c|c|c o], j as [c'|c'|c' o'], k as [c2|c2|c2 o2]; cbn; try contradiction.
  - apply Forall2_trans, point_trans.
  - apply Forall2_trans, qpoint_trans.
  - intros [H ->] [H' ->]. split; [|reflexivity]. revert H H'. apply Forall2_trans, hpoint_trans.
Qed.
Lemma mcontour_trans c c' c2 : same_mcontour data c c' -> same_mcontour data c' c2 -> same_mcontour data c c2.
Proof.
  revert c' c2. induction c as [i o IH] using mcontour_nested. intros c' c2 H H'.
  inversion H as [? i' A|? i' v v' A B C|? i' d d' A B C|? i' p p' A B C D]; subst; inversion H'; subst;
    constructor; try congruence; try (eapply inner_trans; eassumption); try (eapply floats_trans; eassumption).
  eapply Forall2_trans_in; [|exact D|eassumption]. intros a b c I _. now apply (IH p a eq_refl I).
Qed.
Lemma guideline_trans (a b c : guideline PD) : fine (gl_angle a :: numbers_of_color (gl_color a)) (gl_angle c :: numbers_of_color (gl_color c)) ->
  same_guideline num data a b -> same_guideline num data b c -> same_guideline num data a c.
Proof.
  intros P (A & B & C & D & E & F & G) (A' & B' & C' & D' & E' & F' & G'). floats. split; [|split; [congruence|split; [|split; [congruence|]]]].
  - eapply P; [now left|now left|exact C|exact C'].
  - revert E E'. apply color_trans. intros i j k I J. apply P; now right.
  - eauto.
Qed.
Lemma image_trans a b c : fine (members (i_matrix a) ++ numbers_of_color (i_color a)) (members (i_matrix c) ++ numbers_of_color (i_color c)) ->
  same_image num os a b -> same_image num os b c -> same_image num os a c.
Proof.
  intros P (A & B & C & D) (A' & B' & C' & D'). split; [eauto|]. split; [|split; [congruence|]].
  - revert B B'. apply numbers_trans. intros i j k I J. apply P; apply in_app_iff; now left.
  - revert D D'. apply color_trans. intros i j k I J. apply P; apply in_app_iff; now right.
Qed.
Lemma layer_trans a b c : fine (numbers_of_color (l_color a)) (numbers_of_color (l_color c)) ->
  (forall im x im' x', In (im, x) (l_images a) -> In (im', x') (l_images c) ->
    fine (members (i_matrix im) ++ numbers_of_color (i_color im)) (members (i_matrix im') ++ numbers_of_color (i_color im'))) ->
  same_layer num data os a b -> same_layer num data os b c -> same_layer num data os a c.
Proof.
  intros P Q (A & B & C & D & E & F) (A' & B' & C' & D' & E' & F'). split; [congruence|]. split; [congruence|]. split; [|split; [|split; [congruence|]]].
  - revert C C'. now apply color_trans.
  - revert D D'. apply Forall2_trans, mcontour_trans.
  - revert F F'. apply Forall2_trans_in. intros [im x] [im1 x1] [im2 x2] I J [G1 G2] [G3 G4]. split; cbn [fst snd] in *.
    + revert G1 G3. apply image_trans. now apply (Q im x im2 x2).
    + revert G2 G4. apply floats_trans.
Qed.
Lemma now_trans {H} (a b c : mglif PD H) :
  (forall l l', In l (mg_layers a) -> In l' (mg_layers c) -> fine (numbers_of_color (l_color l)) (numbers_of_color (l_color l')) /\
    forall im x im' x', In (im, x) (l_images l) -> In (im', x') (l_images l') ->
      fine (members (i_matrix im) ++ numbers_of_color (i_color im)) (members (i_matrix im') ++ numbers_of_color (i_color im'))) ->
  (forall u v, In u (cs_vec (mg_components a)) -> In v (cs_vec (mg_components c)) -> fine (members (c_matrix u)) (members (c_matrix v))) ->
  (forall u v, In u (mg_guidelines a) -> In v (mg_guidelines c) ->
    fine (gl_angle u :: numbers_of_color (gl_color u)) (gl_angle v :: numbers_of_color (gl_color v))) ->
  same_but_history num data os a b -> same_but_history num data os b c -> same_but_history num data os a c.
Proof.
  intros P1 P2 P3 (A & B & (C1 & C2 & C3) & D & E & F & G1 & G2 & G3 & G4 & G5) (A' & B' & (C1' & C2' & C3') & D' & E' & F' & G1' & G2' & G3' & G4' & G5').
  split; [|split; [|split; [|split; [|split; [|split]]]]].
  - revert A A'. apply Forall2_trans_in. intros x y z I J. apply layer_trans; now apply P1.
  - revert B B'. apply Forall2_trans. intros x y z (H1 & H2 & H3 & H4 & H5) (J1 & J2 & J3 & J4 & J5). floats. repeat split; try congruence. eauto.
  - split; [congruence|]. split; [|intros s; rewrite C3; apply C3']. revert C2 C2'. apply Forall2_trans_in.
    intros x y z I J (H1 & H2 & H3 & H4) (J1 & J2 & J3 & J4). split; [congruence|]. split; [congruence|]. split; [|congruence].
    revert H3 J3. apply numbers_trans. now apply P2.
  - revert D D'. apply both_trans. intros ? ? ?. apply Forall2_trans. intros ? ? ?. apply Forall2_trans, point_trans.
  - revert E E'. apply both_trans. intros ? ? ?. apply Forall2_trans. intros x y z [H1 H2] [H3 H4]. split; [eapply floats_trans; eassumption|congruence].
  - revert F F'. apply Forall2_trans_in. intros x y z I J. apply guideline_trans. now apply P3.
  - repeat split; congruence.
Qed.
Lemma both_sets_trans (a b c : option (list (N * N))) :
  both (fun s s' => forall x, In x s <-> In x s') a b -> both (fun s s' => forall x, In x s <-> In x s') b c ->
  both (fun s s' => forall x, In x s <-> In x s') a c.
Proof. apply both_trans. intros x y z A B s. now rewrite A. Qed.
Lemma entry_trans h h' h2 :
  (let 'HEntry _ _ _ _ gl _ m := h in let 'HEntry _ _ _ _ gl' _ m' := h2 in
   (forall u v, In u gl -> In v gl' -> fine (gl_angle u :: numbers_of_color (gl_color u)) (gl_angle v :: numbers_of_color (gl_color v))) /\
   (forall i j k, number_in_mfek i m -> number_in_mfek k m' -> num i j -> num j k -> num i k)) ->
  same_entry num data os h h' -> same_entry num data os h' h2 -> same_entry num data os h h2.
Proof.
  revert h' h2. induction h as [d li ci pi gl sel m IH] using history_nested. intros h' h2 P H H'.
  inversion H as [? ? ? ? ? gl' ? sel' ? m' A B C D]; subst. inversion H' as [? ? ? ? ? gl2 ? sel2 ? m2 A' B' C' D']; subst. destruct P as [P Q]. constructor.
  - revert A A'. apply Forall2_trans_in. intros x y z I J. apply guideline_trans. now apply P.
  - eapply both_sets_trans; eassumption.
  - revert C C'. apply now_trans.
    + intros l l' I J. split; [intros i j k K1 K2; apply Q; eapply number_in_layer_color; eassumption|].
      intros im x im' x' K1 K2 i j k N1 N2. apply Q; eapply number_in_image; eassumption.
    + intros u v I J i j k K1 K2. apply Q; eapply number_in_component; eassumption.
    + intros u v I J i j k K1 K2. apply Q; eapply number_in_guideline; eassumption.
  - revert D D'. apply Forall2_trans_in. intros x y z I J. apply (IH x I).
    destruct x as [d1 li1 ci1 pi1 gl1 sel1 m1], z as [d3 li3 ci3 pi3 gl3 sel3 m3]. split.
    + intros u v K1 K2 i j k N1 N2. apply Q; [exact (number_in_entry _ _ _ _ _ _ _ _ _ u I K1 N1)|exact (number_in_entry _ _ _ _ _ _ _ _ _ v J K2 N2)].
    + intros i j k N1 N2. apply Q; eapply number_in_past; eassumption.
Qed.
Lemma mfek_trans a b c : (forall i j k, number_in_mfek i a -> number_in_mfek k c -> num i j -> num j k -> num i k) ->
  same_mfek num data os a b -> same_mfek num data os b c -> same_mfek num data os a c.
Proof.
  intros Q [A B] [A' B']. split.
  - revert A A'. apply now_trans.
    + intros l l' I J. split; [intros i j k K1 K2; apply Q; eapply number_in_layer_color; eassumption|].
      intros im x im' x' K1 K2 i j k N1 N2. apply Q; eapply number_in_image; eassumption.
    + intros u v I J i j k K1 K2. apply Q; eapply number_in_component; eassumption.
    + intros u v I J i j k K1 K2. apply Q; eapply number_in_guideline; eassumption.
  - revert B B'. apply Forall2_trans_in. intros x y z I J. apply entry_trans.
    destruct x as [d1 li1 ci1 pi1 gl1 sel1 m1], z as [d3 li3 ci3 pi3 gl3 sel3 m3]. split.
    + intros u v K1 K2 i j k N1 N2. apply Q; [exact (number_in_entry _ _ _ _ _ _ _ _ _ u I K1 N1)|exact (number_in_entry _ _ _ _ _ _ _ _ _ v J K2 N2)].
    + intros i j k N1 N2. apply Q; eapply number_in_past; eassumption.
Qed.
End Transitive.

(** ** Glyphs made from equal glyphs *)
Lemma same_wide f g : valid32 f = true -> valid32 g = true -> same_float f g -> same_float (f64_of_f32 f) (f64_of_f32 g).
Proof. intros _ V H. apply (feq_decides (f64_of_f32 f)), feq_wide; [exact V|]. now apply (feq_decides f). Qed.
Lemma int_wide z : (Z.abs z <= 2 ^ 24)%Z -> same_float (f64_of_Z z) (f64_of_f32 (f32_of_Z z)).
Proof.
  intros H. apply (feq_decides (f64_of_Z z)). destruct (int_float z H) as [V F]. destruct (val_of_Z64 z ltac:(lia)) as [A B].
  apply (val_feq 53 1024 _ _ z 0%Z B (f64_of_f32_valid _) A).
  apply val0_value. apply f64_value; [exact V|exact F].
Qed.
Lemma number_wide i j : proper_iof i -> proper_iof j -> small i -> small j -> equal_number i j -> same_float (f64_of_iof i) (f64_of_iof j).
Proof.
  destruct i as [x|f], j as [y|g]; cbn [proper_iof small equal_number f32_of_iof f64_of_iof]; intros Pi Pj Si Sj H.
  - subst y. eapply same_float_trans; [apply (int_wide x Si)|]. apply same_float_sym, (int_wide x Si).
  - eapply same_float_trans; [apply (int_wide x Si)|]. apply same_wide; [apply (int_float x Si)|exact Pj|exact H].
  - eapply same_float_trans; [|apply same_float_sym, (int_wide y Sj)]. apply same_wide; [exact Pi|apply (int_float y Sj)|exact H].
  - now apply same_wide.
Qed.
Lemma affine_of_equal m m' : Forall (fun i => proper_iof i /\ small i) (members m) -> Forall (fun i => proper_iof i /\ small i) (members m') ->
  equal_matrix equal_number m m' -> Forall2 same_float (affine_floats (affine_of_matrix m)) (affine_floats (affine_of_matrix m')).
Proof.
  unfold members, equal_matrix, members, affine_floats, affine_of_matrix. cbn [c0 c1 c2 c3 c4 c5]. intros A B H.
  rewrite !Forall_cons_iff in A, B. rewrite !F2_cons, F2_nil in *.
  destruct A as ([] & [] & [] & [] & [] & [] & _), B as ([] & [] & [] & [] & [] & [] & _), H as (? & ? & ? & ? & ? & ? & _).
  repeat split; now apply number_wide.
Qed.
Lemma Forall2_map2 {A B} (R : A -> A -> Prop) (S : B -> B -> Prop) (f : A -> B) l m :
  (forall a b, In a l -> In b m -> R a b -> S (f a) (f b)) -> Forall2 R l m -> Forall2 S (map f l) (map f m).
Proof.
  intros H F. induction F as [|x y l m Hx _ IH]; cbn; constructor; [apply H; auto using in_eq|]. apply IH. intros a b I J. apply H; now right.
Qed.

Section Convert.
Context {PD PL : Type} (data : PD -> PD -> Prop) (pl : PL -> PL -> Prop) (el : element -> element -> Prop) (os : osstr -> osstr -> Prop).
Lemma upgrade_same (a b : glif PD PL) :
  Forall (fun i => proper_iof i /\ small i) (placed_numbers a) -> Forall (fun i => proper_iof i /\ small i) (placed_numbers b) ->
  same_glyph equal_number data pl el os a b ->
  same_mfek equal_number data os (mglif_of_glif a) (mglif_of_glif b).
Proof.
  intros Na Nb (A & B & C & D & E & F1 & F2 & F3 & F4 & F5 & _). unfold placed_numbers in Na, Nb. rewrite Forall_flat_map, Forall_forall in Na, Nb.
  split; [|constructor]. unfold same_but_history, mglif_of_glif.
  cbn [mg_layers mg_anchors mg_components mg_flattened mg_component_rects mg_guidelines mg_width mg_unicode mg_name mg_note mg_filename both].
  split; [|tauto]. constructor; [|constructor]. unfold same_layer. cbn [l_name l_visible l_color l_outline l_operation l_images both].
  split; [reflexivity|]. split; [reflexivity|]. split; [exact I|]. split; [|split; [reflexivity|]].
  - destruct (g_outline a) as [o|], (g_outline b) as [o'|]; cbn [both] in A; try contradiction; [|constructor].
    revert A. apply Forall2_map2. intros c c' _ _ H. constructor. exact H.
  - revert E. apply Forall2_map2. intros i i' Ia Ib H. split; [exact H|]. cbn [snd]. apply affine_of_equal; auto. apply H.
Qed.
Lemma downgrade_same {H} (a b : mglif PD H) (g : glif PD PL) :
  same_but_history equal_number data os a b -> glif_of_mglif a = Ok g ->
  exists g', glif_of_mglif b = Ok g' /\ same_glyph equal_number data pl el os g g'.
Proof.
  intros (A & B & C & D & E & F & G1 & G2 & G3 & G4 & G5). unfold glif_of_mglif.
  destruct (mg_layers a) as [|la ta]; [discriminate|]. inversion A as [|? lb ? tb S _ X Y]; subst. cbn [idx nth_error bind].
  destruct S as (_ & _ & _ & S & _ & S').
  assert (forall o, mapM (fun c => cubic_points (mc_inner c)) (l_outline la) = Ok o ->
    exists o', mapM (fun c => cubic_points (mc_inner c)) (l_outline lb) = Ok o' /\ Forall2 (Forall2 (same_point data)) o o') as M.
  { clear - S. induction S as [|c c' l m Hc _ IH]; cbn [mapM]; intros o.
    - intros [= <-]. exists []. split; [reflexivity|constructor].
    - assert (same_inner data (mc_inner c) (mc_inner c')) as Hi by (destruct Hc; assumption).
      destruct (mc_inner c) as [p|p|p x], (mc_inner c') as [q|q|q y]; cbn in Hi; try contradiction; cbn [cubic_points bind]; try discriminate.
      destruct (mapM _ l) as [r| |]; cbn [bind]; try discriminate. intros [= <-]. destruct (IH r eq_refl) as (r' & -> & IH').
      cbn [bind]. eexists. split; [reflexivity|]. now constructor. }
  destruct (mapM _ (l_outline la)) as [o| |]; cbn [bind]; try discriminate. intros [= <-].
  destruct (M o eq_refl) as (o' & -> & M'). cbn [bind]. eexists. split; [reflexivity|].
  unfold same_glyph. cbn [g_outline g_anchors g_components g_guidelines g_images g_width g_unicode g_name g_note g_filename g_lib glif_default both same_lib].
  split; [exact M'|]. split; [exact B|]. split; [exact C|]. split; [exact F|]. split; [|tauto].
  clear - S'. induction S' as [|x y l m [Hx _] _ IH]; cbn; constructor; [exact Hx|exact IH].
Qed.
End Convert.

(** ** After saving as JSON *)
Lemma same_filename {PD} num data os (a b : mglif PD (history PD)) : same_but_history num data os a b -> mg_filename a = mg_filename b.
Proof. intros (_ & _ & _ & _ & _ & _ & _ & _ & _ & _ & E). exact E. Qed.
Section Loaded.
Context {PD : Type} (num : iof -> iof -> Prop) (data : PD -> PD -> Prop) (os : osstr -> osstr -> Prop).
Definition nameless_entry (h : history PD) : Prop := let 'HEntry _ _ _ _ _ _ m := h in nameless m.
Lemma nameless_cases (m : mglif PD (history PD)) : nameless m <-> mg_filename m = None /\ forall h, In h (mg_history m) -> nameless_entry h.
Proof.
  split.
  - intros [A B]. split; [exact A|]. intros [d li ci pi gl sel m'] I. exact (B _ _ _ _ _ _ _ I).
  - intros [A B]. constructor; [exact A|]. intros d li ci pi gl sel m' I. exact (B _ I).
Qed.
Lemma map_id_in {A} (f : A -> A) l : (forall a, In a l -> f a = a) -> map f l = l.
Proof. intros H. rewrite <- (map_id l) at 2. now apply map_ext_in. Qed.
Lemma saved_nameless_entry (h : history PD) : nameless_entry h -> history_saved h = h.
Proof.
  induction h as [d li ci pi gl sel m IH] using history_nested. cbn [nameless_entry history_saved]. intros N.
  apply nameless_cases in N as [A B]. f_equal. destruct m as [l hs an co fl re gu wi un na no fi]. cbn [mg_filename mg_history] in *. unfold mglif_saved. cbn.
  rewrite map_id_in by (intros h I; apply IH; [exact I|now apply B]). now rewrite A.
Qed.
Lemma saved_nameless (m : mglif PD (history PD)) : nameless m -> mfekglif_saved m = m.
Proof.
  intros N. apply nameless_cases in N as [A B]. destruct m as [l hs an co fl re gu wi un na no fi]. cbn [mg_filename mg_history] in *. unfold mfekglif_saved, mglif_saved. cbn.
  rewrite map_id_in by (intros h I; apply saved_nameless_entry; now apply B). now rewrite A.
Qed.
Lemma entry_saved_same (h : history PD) : same_entry num data os h (history_saved h) -> nameless_entry h.
Proof.
  induction h as [d li ci pi gl sel m IH] using history_nested. cbn [nameless_entry history_saved]. intros S.
  inversion S as [? ? ? ? ? ? ? ? ? ? _ _ C D]; subst. apply nameless_cases. split; [exact (same_filename _ _ _ _ _ C)|].
  cbn [mglif_saved mg_history] in D. intros h I. apply (IH h I). clear - D I. revert D.
  induction (mg_history m) as [|x t IH]; [easy|]. cbn [map]. inversion 1; subst. destruct I as [<-|I]; auto.
Qed.
Lemma saved_same (m : mglif PD (history PD)) : same_mfek num data os m (mfekglif_saved m) -> nameless m.
Proof.
  intros [C D]. apply nameless_cases. split; [exact (same_filename _ _ _ _ _ C)|]. cbn [mfekglif_saved mglif_saved mg_history] in D.
  intros h I. apply entry_saved_same. clear - D I. revert D.
  induction (mg_history m) as [|x t IH]; [easy|]. cbn [map]. inversion 1; subst. destruct I as [<-|I]; auto.
Qed.
Lemma saved_proper (m : mglif PD (history PD)) : proper_mfek m -> proper_mfek (mfekglif_saved m).
Proof.
  assert (forall h : history PD, proper_entry h -> proper_entry (history_saved h)) as E.
  { intros h. induction h as [d li ci pi gl sel m' IH] using history_nested. cbn [proper_entry history_saved]. intros [A B]. split; [exact A|].
    pose proof (fun h => proper_history m' h B) as B'. destruct B as [B _]. constructor; [exact B|]. cbn [mglif_saved mg_history].
    intros d' li' ci' pi' gl' sel' m2 I. apply in_map_iff in I as (x & Ex & I). specialize (IH x I (B' x I)). now rewrite Ex in IH. }
  intros P. pose proof (fun h => proper_history m h P) as B'. destruct P as [B _]. constructor; [exact B|]. cbn [mfekglif_saved mglif_saved mg_history].
  intros d' li' ci' pi' gl' sel' m2 I. apply in_map_iff in I as (x & Ex & I). specialize (E x (B' x I)). now rewrite Ex in E.
Qed.
End Loaded.
