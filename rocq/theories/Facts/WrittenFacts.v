(** Structure of written documents, settings, files, and repeated saving. *)
Require Import Coq.Strings.String Coq.Lists.List Coq.Arith.Arith Coq.NArith.NArith Coq.ZArith.ZArith Coq.Bool.Bool Coq.Floats.SpecFloat
  Coq.Sorting.Permutation Coq.micromega.Lia.
Require Import Verif.Model.Base Verif.Model.Text Verif.Model.Float Verif.Model.Num Verif.Model.Point Verif.Model.Contour
  Verif.Model.Create Verif.Model.Conv Verif.Model.Strings Verif.Model.Names Verif.Model.Pedantry Verif.Model.Color Verif.Model.Xml
  Verif.Model.Parts Verif.Model.Read Verif.Model.Write
  Verif.Spec.TextSpec Verif.Spec.ContourSpec Verif.Spec.OutlineSpec Verif.Spec.GlyphSpec Verif.Spec.DocumentSpec
  Verif.Facts.NamesFacts Verif.Facts.PathFacts Verif.Facts.CreateFacts Verif.Facts.ConvFacts Verif.Facts.XmlFacts Verif.Facts.GlyphFacts Verif.Facts.DocumentFacts.
Import ListNotations.
Local Open Scope nat_scope.

(** ** Files *)
Lemma directory_is fn dir : directory_of fn dir <-> dir = match path_file_name fn with Some _ => removelast fn | None => fn end.
Proof.
  unfold directory_of. fold special. destruct (path_file_name fn) as [f|] eqn:E.
  - apply file_name_some in E as (d & -> & N). rewrite removelast_snoc. split.
    + intros [(old & H & _)|[<- H]].
      * now apply app_inj_tail in H as [-> _].
      * exfalso. apply N, (H d f eq_refl).
    + intros ->. left. now exists f.
  - pose proof (proj1 (file_name_none fn) E) as H. split.
    + intros [(old & -> & N)|[-> _]]; [|reflexivity]. exfalso. apply N, (H dir old eq_refl).
    + intros ->. right. split; [reflexivity|exact H].
Qed.
Lemma beside_is fn f p : beside fn f p <-> p = path_set_file_name fn f.
Proof.
  unfold beside, path_set_file_name. split.
  - intros (dir & H & ->). apply directory_is in H. now rewrite H.
  - intros ->. eexists. split; [apply directory_is; reflexivity|reflexivity].
Qed.

Section Files.
Context (L : numlib) {PD PL : Type} (pd0 : PD) (P : plistlib PL).
Lemma found_in_is fn (g0 g : glif PD PL) :
  found_in fn g0 g <->
  g = mkGlif (g_outline g0) (g_anchors g0)
        (mkComponents (cs_root (g_components g0)) (map (fun c => component_set_file_name c fn) (cs_vec (g_components g0))) (cs_uniques (g_components g0)))
        (g_guidelines g0) (g_images g0) (g_width g0) (g_unicode g0) (g_name g0) (g_note g0) (Some fn) (g_lib g0).
Proof.
  assert (forall l l', Forall2 (fun c0 c => c_base c = c_base c0 /\ c_matrix c = c_matrix c0 /\ c_identifier c = c_identifier c0 /\
                       exists p, c_filename c = Some p /\ beside fn (name_to_filename (c_base c0) true) p) l l' <->
            l' = map (fun c => component_set_file_name c fn) l) as X.
  { induction l as [|c l IH]; intros l'; cbn [map].
    - split; [intros H; now inversion H|intros ->; constructor].
    - split.
      + intros H. inversion H as [|? d ? m (H1 & H2 & H3 & p & H4 & H5) H6]; subst. f_equal; [|now apply IH].
        apply beside_is in H5. subst p. destruct d as [b f mm i]. cbn in *. subst. reflexivity.
      + intros ->. constructor; [|now apply IH]. cbn. do 3 (split; [reflexivity|]). eexists. split; [reflexivity|]. now apply beside_is. }
  unfold found_in. rewrite X. destruct g as [o an [r v u] gl im w us nm nt fl lb]. cbn. split.
  - intros (-> & -> & -> & -> & -> & -> & -> & -> & -> & -> & -> & -> & ->). reflexivity.
  - intros E. injection E as -> -> -> -> -> -> -> -> -> -> -> -> ->. repeat split.
Qed.
Lemma read_file_is {T} (files : path -> option T) (parse : T -> option element) ped fn (g : glif PD PL) :
  read_from_filename L pd0 P T files parse ped fn = Ok g <->
  exists txt root g0, files fn = Some txt /\ parse txt = Some root /\ document_says L pd0 P ped root g0 /\ found_in fn g0 g.
Proof.
  unfold read_from_filename. split.
  - intros H. apply bind_ok in H as (txt & H1 & H). apply bind_ok in H as (root & H2 & H). apply bind_ok in H as (g0 & H3 & H).
    apply ok_or_ok in H1, H2. exists txt, root, g0. split; [assumption|]. split; [assumption|].
    split; [now apply read_element_says|]. apply found_in_is. cbv zeta in H. congruence.
  - intros (txt & root & g0 & H1 & H2 & H3 & H4). rewrite H1. cbn [ok_or bind]. rewrite H2. cbn [ok_or bind].
    apply read_element_says in H3. rewrite H3. cbn [bind]. apply found_in_is in H4. rewrite H4. reflexivity.
Qed.
End Files.

(** ** Settings *)
Section Settings.
Context (L : numlib) {PD PL : Type} (pd0 : PD) (P : plistlib PL).
Lemma default_not_sfnt : ~ sfnt pedantry_default.
Proof. intros [H|H]; discriminate. Qed.
Lemma default_not_strict : ~ strict pedantry_default.
Proof. intros [[H|H] _]; discriminate. Qed.
Lemma number_at_unique e k i j : number_at L e k i -> number_at L e k j -> i = j.
Proof. intros (s & H1 & H2) (s' & H3 & H4). congruence. Qed.

Lemma anchor_under_says ped e (a : anchor PD) : anchor_says L pd0 ped e a ->
  exists a0, anchor_says L pd0 pedantry_default e a0 /\ anchor_under ped a0 a.
Proof.
  destruct a as [ax ay ac ad at']. unfold anchor_says, anchor_under. cbn [an_x an_y an_class an_type an_data].
  intros ((x & y & H1 & H2 & [Hx Hx'] & [Hy Hy'] & _) & Hc & Ht & Hd).
  exists (mkAnchor (f32_of_iof x) (f32_of_iof y) ac ad at'). cbn [an_x an_y an_class an_type an_data].
  split; [|repeat split; auto].
  split; [|auto]. exists x, y. split; [assumption|]. split; [assumption|].
  split; [split; [intros K; destruct (default_not_sfnt K)|reflexivity]|]. split; [split; [intros K; destruct (default_not_sfnt K)|reflexivity]|]. intros K. now destruct K.
Qed.
Lemma anchor_says_under ped e (a0 : anchor PD) : anchor_says L pd0 pedantry_default e a0 ->
  (ped_mend ped <> MendAlways -> forall k, In k ["x"; "y"]%string -> exists z, number_at L e k (IInt z)) ->
  exists a, anchor_says L pd0 ped e a /\ anchor_under ped a0 a.
Proof.
  destruct a0 as [ax ay ac ad at']. unfold anchor_says, anchor_under. cbn [an_x an_y an_class an_type an_data].
  intros ((x & y & H1 & H2 & [_ Hx] & [_ Hy] & _) & Hc & Ht & Hd) Hi. specialize (Hx default_not_sfnt). specialize (Hy default_not_sfnt). subst ax ay.
  exists (mkAnchor (maybe_round (ped_level ped) x FCAnchor) (maybe_round (ped_level ped) y FCAnchor) ac ad at'). cbn [an_x an_y an_class an_type an_data].
  assert (anchor_coordinate ped x (maybe_round (ped_level ped) x FCAnchor)) as K1 by now apply anchor_coordinate_read.
  assert (anchor_coordinate ped y (maybe_round (ped_level ped) y FCAnchor)) as K2 by now apply anchor_coordinate_read.
  split.
  - split; [|auto]. exists x, y. do 4 (split; [assumption|]). intros Hm. destruct (Hi Hm "x"%string) as (z & Hz); [cbn; auto|].
    destruct (Hi Hm "y"%string) as (z' & Hz'); [cbn; auto|]. split; [exists z|exists z']; eapply number_at_unique; eassumption.
  - destruct K1, K2. repeat split; auto.
Qed.
Lemma anchor_says_integers ped e (a : anchor PD) k : anchor_says L pd0 ped e a -> ped_mend ped <> MendAlways -> In k ["x"; "y"]%string -> exists z, number_at L e k (IInt z).
Proof.
  intros ((x & y & H1 & H2 & _ & _ & H) & _) Hm [<-|[<-|[]]]; destruct (H Hm) as [(zx & ->) (zy & ->)]; eauto.
Qed.
Lemma anchors_split ped es (l : list (anchor PD)) : Forall2 (anchor_says L pd0 ped) es l ->
  exists l0, Forall2 (anchor_says L pd0 pedantry_default) es l0 /\ Forall2 (anchor_under ped) l0 l.
Proof.
  induction 1 as [|e a es l H _ (l0 & H1 & H2)]; [exists []; auto|].
  destruct (anchor_under_says _ _ _ H) as (a0 & Ha & Hb). exists (a0 :: l0). auto.
Qed.
Lemma anchors_join ped es (l0 : list (anchor PD)) : Forall2 (anchor_says L pd0 pedantry_default) es l0 ->
  (ped_mend ped <> MendAlways -> forall e k, In e es -> In k ["x"; "y"]%string -> exists z, number_at L e k (IInt z)) ->
  exists l, Forall2 (anchor_says L pd0 ped) es l /\ Forall2 (anchor_under ped) l0 l.
Proof.
  induction 1 as [|e a es l H _ IH]; intros Hi; [exists []; auto|].
  destruct IH as (l' & H1 & H2). { intros Hm e' k He. apply (Hi Hm). now right. }
  destruct (anchor_says_under ped _ _ H) as (a0 & Ha & Hb). { intros Hm k. apply (Hi Hm). now left. }
  exists (a0 :: l'). auto.
Qed.
Lemma anchors_integers ped es (l : list (anchor PD)) : Forall2 (anchor_says L pd0 ped) es l ->
  ped_mend ped <> MendAlways -> forall e k, In e es -> In k ["x"; "y"]%string -> exists z, number_at L e k (IInt z).
Proof.
  induction 1 as [|e a es l H _ IH]; intros Hm e' k; [intros []|]. intros [<-|He]; [now apply (anchor_says_integers ped e a k H)|now apply IH].
Qed.

Lemma advance_default ped e w : advance_says L ped e w -> advance_says L pedantry_default e w.
Proof. intros (s & H & [H1|(H1 & _ & H2)]); exists s; split; auto. right. split; [assumption|]. split; [apply default_not_strict|assumption]. Qed.
Lemma advance_strict ped e w : advance_says L ped e w -> strict ped -> exists s w, get e "width" = Some s /\ parse_u64 s = Some w.
Proof. intros (s & H & [H1|(_ & H1 & _)]) Hs; [eauto|contradiction]. Qed.
Lemma advance_under ped e w : advance_says L pedantry_default e w ->
  (strict ped -> exists s w, get e "width" = Some s /\ parse_u64 s = Some w) -> advance_says L ped e w.
Proof.
  intros (s & H & [H1|(H1 & _ & H2)]) Hs; exists s; split; auto. right. split; [assumption|]. split; [|assumption].
  intros K. destruct (Hs K) as (s' & w' & H3 & H4). congruence.
Qed.

(** Reading under a setting, in terms of the default setting. *)
Lemma read_under ped root (g : glif PD PL) :
  document_says L pd0 P ped root g <->
  acceptable L ped root /\ exists g0, document_says L pd0 P pedantry_default root g0 /\ glyph_under ped g0 g.
Proof.
  split.
  - destruct g as [out an cs gl im w us nm nt fn lb]. unfold document_says at 1.
    cbn [g_name g_width g_unicode g_anchors g_images g_guidelines g_note g_lib g_filename g_components g_outline].
    intros (H1 & H2 & H3 & H4 & H5 & H6 & H7). split.
    + split; [intros Hm e k; exact (anchors_integers ped _ _ H6 Hm e k)|]. intros Hs e r E. rewrite E in H4. destruct H4 as (w' & _ & H4). eapply advance_strict; eauto.
    + destruct (anchors_split ped _ _ H6) as (an0 & Ha & Hb). exists (mkGlif out an0 cs gl im w us nm nt fn lb). split.
      * unfold document_says. cbn [g_name g_width g_unicode g_anchors g_images g_guidelines g_note g_lib g_filename g_components g_outline].
        do 3 (split; [assumption|]). split.
        { destruct (named "advance" root) as [|e r]; [assumption|]. destruct H4 as (w' & -> & H4). exists w'. split; [reflexivity|]. eapply advance_default; eassumption. }
        do 2 (split; [assumption|]). assumption.
      * unfold glyph_under. cbn. repeat split. assumption.
  - intros ([A1 A2] & g0 & H & Hu). destruct g0 as [out an0 cs gl im w us nm nt fn lb]. destruct g as [out' an cs' gl' im' w' us' nm' nt' fn' lb'].
    unfold glyph_under in Hu. cbn in Hu. destruct Hu as (Hu & -> & -> & -> & -> & -> & -> & -> & -> & -> & ->).
    unfold document_says in *. cbn [g_name g_width g_unicode g_anchors g_images g_guidelines g_note g_lib g_filename g_components g_outline] in *.
    destruct H as (H1 & H2 & H3 & H4 & H5 & H6 & H7). do 3 (split; [assumption|]). split.
    { destruct (named "advance" root) as [|e r]; [assumption|]. destruct H4 as (v & -> & H4). exists v. split; [reflexivity|]. apply advance_under; [assumption|].
      intros Hs. apply (A2 Hs e r eq_refl). }
    split; [assumption|]. split; [|assumption].
    destruct (anchors_join ped _ _ H6 A1) as (an1 & Ha & Hb). assert (an = an1) as ->; [|assumption].
    clear -Hu Hb. revert an1 Hb. induction Hu as [|a0 a l0 l H _ IH]; intros an1 Hb; inversion Hb as [|? b ? l1 Hc Hd]; subst; [reflexivity|].
    f_equal; [|now apply IH]. destruct a as [x y c d t], b as [x' y' c' d' t']. unfold anchor_under in *. cbn in *.
    destruct H as (-> & -> & -> & Hs & Hn), Hc as (-> & -> & -> & Hs' & Hn').
    assert (sfnt ped \/ ~ sfnt ped) as [K|K] by (rewrite sfnt_is; destruct (is_sfnt (ped_level ped)); auto).
    + destruct (Hs K), (Hs' K). f_equal; eapply rounded_unique; eassumption.
    + destruct (Hn K), (Hn' K). congruence.
Qed.
End Settings.

(** ** Written documents *)
Lemma children_named_app n c d : children_named n (c ++ d) = children_named n c ++ children_named n d.
Proof. unfold children_named. apply flat_map_app. Qed.
Lemma children_all n es : Forall (fun e => ename e = n) es -> children_named n (map NElem es) = es.
Proof.
  induction 1 as [|e es H _ IH]; [reflexivity|]. unfold children_named in *. cbn. destruct (list_eq_dec N.eq_dec (ename e) n); [|contradiction]. cbn. now rewrite IH.
Qed.
Lemma children_none n m es : Forall (fun e => ename e = m) es -> m <> n -> children_named n (map NElem es) = [].
Proof.
  intros H Hn. induction H as [|e es H _ IH]; [reflexivity|]. unfold children_named in *. cbn. destruct (list_eq_dec N.eq_dec (ename e) n); [congruence|]. now rewrite IH.
Qed.

Section Written.
Context (L : numlib) {PD PL : Type} (P : plistlib PL) (dbg : bool).

Ltac opts := repeat match goal with |- context [match ?o with Some _ => _ | None => _ end] => is_var o; destruct o | |- context [insert_opt _ ?o _] => is_var o; destruct o end.
Lemma anchor_written_ok (a : anchor PD) : anchor_written L a (anchor_xml L a).
Proof. destruct a as [x y c d t]. unfold anchor_written, leaf, attributes, anchor_xml. cbn. destruct c; split; reflexivity. Qed.
Lemma guideline_written_ok (g : guideline PD) : guideline_written L g (guideline_xml L g).
Proof. destruct g as [x y a n c i d]. unfold guideline_written, leaf, attributes, guideline_xml. cbn. destruct n, c, i; split; reflexivity. Qed.
Lemma component_written_ok c : component_written L c (component_xml L c).
Proof. destruct c as [b f m i]. unfold component_written, leaf, attributes, component_xml, write_matrix, matrix_attributes. cbn. destruct i; split; reflexivity. Qed.
Lemma point_written_ok g e : gp_xml L dbg g = Ok e -> point_written L g e /\ ename e = lit "point".
Proof.
  unfold gp_xml. destruct g as [x y s n t]. cbn [gx gy gsmooth gname gptype].
  intros H. unfold point_written, leaf, attributes. cbn [gx gy gsmooth gname gptype].
  destruct s.
  - destruct (dbg && ptype_eqb t OffCurve); [discriminate|]. injection H as <-. destruct t, n; cbn; repeat split; reflexivity.
  - injection H as <-. destruct t, n; cbn; repeat split; reflexivity.
Qed.
Lemma mapM_Forall2 {A B} (f : A -> res B) l m : mapM f l = Ok m -> Forall2 (fun x y => f x = Ok y) l m.
Proof. apply mapM_says. reflexivity. Qed.
Lemma Forall2_weaken {A B} (R S : A -> B -> Prop) l m : (forall x y, R x y -> S x y) -> Forall2 R l m -> Forall2 S l m.
Proof. intros H. induction 1; auto. Qed.
Lemma Forall2_right {A B} (R : A -> B -> Prop) (Q : B -> Prop) l m : (forall x y, R x y -> Q y) -> Forall2 R l m -> Forall Q m.
Proof. intros H. induction 1; eauto. Qed.
Lemma contour_written_ok (c : contour PD) e : contour_xml L dbg c = Ok e -> contour_written L dbg c e /\ ename e = lit "contour".
Proof.
  unfold contour_xml. destruct (into_glifpoints L dbg (3 * List.length c + 3) c) as [[gps| |]|] eqn:E; try discriminate.
  unfold gcontour_xml. intros H. apply bind_ok in H as (ps & H & X). injection X as <-. apply mapM_Forall2 in H.
  assert (named "point" (Element (lit "contour") [] (map NElem ps)) = ps) as Hn.
  { unfold named. cbn [echildren]. apply children_all. eapply Forall2_right; [|exact H]. intros g e He. now apply point_written_ok in He. }
  split; [|reflexivity]. unfold contour_written. rewrite Hn. split; [reflexivity|]. split; [reflexivity|]. exists gps. split; [assumption|].
  eapply Forall2_weaken; [|exact H]. intros g e He. now apply point_written_ok.
Qed.

Lemma image_nodes_ok ims : exists es, flat_map (image_nodes L) ims = map NElem es /\ Forall (fun e => ename e = lit "image") es /\
  Forall2 (image_written L) (filter utf8_name ims) es.
Proof.
  induction ims as [|i ims (es & H1 & H2 & H3)]; [exists []; repeat split; constructor|]. cbn [flat_map filter].
  assert (image_nodes L i = match i_filename i with Utf8 s => [NElem (write_matrix L (i_identifier i) (i_matrix i) (insert "fileName" s (new_element "image")))] | NotUtf8 _ => [] end) as ->
    by (unfold image_nodes, image_try_xml; destruct (i_filename i); reflexivity).
  assert (utf8_name i = match i_filename i with Utf8 _ => true | NotUtf8 _ => false end) as -> by reflexivity.
  destruct (i_filename i) as [s|] eqn:Ef.
  - exists (write_matrix L (i_identifier i) (i_matrix i) (insert "fileName" s (new_element "image")) :: es).
    split; [now rewrite H1|]. split.
    + constructor; [|assumption]. unfold write_matrix. destruct (i_identifier i); reflexivity.
    + constructor; [|assumption]. exists s. split; [assumption|]. unfold leaf, attributes, write_matrix, matrix_attributes. cbn. destruct (i_identifier i); split; reflexivity.
  - exists es. split; [now rewrite H1|]. auto.
Qed.
Lemma map_NElem {A} (f : A -> element) l : map (fun x => NElem (f x)) l = map NElem (map f l).
Proof. now rewrite map_map. Qed.
Lemma Forall2_map_right {A B} (R : A -> B -> Prop) (f : A -> B) l : (forall x, R x (f x)) -> Forall2 R l (map f l).
Proof. intros H. induction l; cbn; auto. Qed.
Lemma Forall_map_name {A} (f : A -> element) n l : (forall x, ename (f x) = n) -> Forall (fun e => ename e = n) (map f l).
Proof. intros H. induction l; cbn; auto. Qed.
Lemma component_name c : ename (component_xml L c) = lit "component".
Proof. unfold component_xml, write_matrix. destruct (c_identifier c); reflexivity. Qed.
Lemma anchor_name (a : anchor PD) : ename (anchor_xml L a) = lit "anchor".
Proof. unfold anchor_xml. destruct (an_class a); reflexivity. Qed.
Lemma guideline_name (g : guideline PD) : ename (guideline_xml L g) = lit "guideline".
Proof. unfold guideline_xml. destruct (gl_identifier g), (gl_name g), (gl_color g); reflexivity. Qed.

Lemma outline_nodes_ok (o : option (outline PD)) ks oc : outline_children L dbg o = Ok oc ->
  exists os, match oc ++ map (fun c => NElem (component_xml L c)) ks with [] => [] | _ => [NElem (Element (lit "outline") [] (oc ++ map (fun c => NElem (component_xml L c)) ks))] end = map NElem os /\
    Forall (fun e => ename e = lit "outline") os /\ outline_written L dbg o ks os.
Proof.
  intros H. unfold outline_written. set (cs := match o with Some cs => cs | None => [] end).
  assert (exists es, oc = map NElem es /\ Forall (fun e => ename e = lit "contour") es /\ Forall2 (contour_written L dbg) cs es) as (es & -> & H1 & H2).
  { unfold outline_children in H. destruct o as [l|]; [|injection H as <-; exists []; repeat constructor].
    apply bind_ok in H as (es & H & X). injection X as <-. apply mapM_Forall2 in H. exists es. split; [reflexivity|]. split.
    - eapply Forall2_right; [|exact H]. intros c e He. now apply contour_written_ok in He.
    - eapply Forall2_weaken; [|exact H]. intros c e He. now apply contour_written_ok. }
  clear H. rewrite (map_NElem (component_xml L) ks), <- map_app. pose proof (Forall_map_name (component_xml L) _ ks component_name) as H3.
  set (kx := map (component_xml L) ks) in *. assert (Forall2 (component_written L) ks kx) as H4 by (apply Forall2_map_right, component_written_ok).
  assert (es ++ kx = [] \/ es ++ kx <> []) as [E|E] by (destruct (es ++ kx); [left; reflexivity|right; discriminate]).
  - apply app_eq_nil in E as [-> E]. rewrite E. exists []. split; [reflexivity|]. split; [constructor|]. left. inversion H2. rewrite E in H4. inversion H4. auto.
  - exists [Element (lit "outline") [] (map NElem (es ++ kx))]. split; [|split; [repeat constructor|]].
    { destruct (es ++ kx) as [|z zs]; [congruence|]. reflexivity. }
    right. split.
    { destruct cs, ks; try (left; discriminate); try (right; discriminate). inversion H2; subst es. contradiction. }
    eexists. split; [reflexivity|]. split; [reflexivity|].
    assert (named "contour" (Element (lit "outline") [] (map NElem (es ++ kx))) = es) as ->.
    { unfold named. cbn [echildren]. rewrite map_app, children_named_app, children_all by assumption.
      rewrite (children_none _ (lit "component")) by (try assumption; discriminate). apply app_nil_r. }
    assert (named "component" (Element (lit "outline") [] (map NElem (es ++ kx))) = kx) as ->.
    { unfold named. cbn [echildren]. rewrite map_app, children_named_app, (children_all _ kx) by assumption.
      now rewrite (children_none _ (lit "contour")) by (try assumption; discriminate). }
    auto.
Qed.
Lemma lib_nodes_ok l : exists ls, lib_nodes P l = map NElem ls /\ Forall (fun e => ename e = lit "lib") ls /\ lib_written P l ls.
Proof.
  unfold lib_nodes, lib_written. destruct l as [|d|[n a c]].
  - exists []. auto.
  - destruct (element_of_plist P d) as [[n a c]|]; [|exists []; auto]. eexists [_]. split; [reflexivity|]. split; [repeat constructor|reflexivity].
  - eexists [_]. split; [reflexivity|]. split; [repeat constructor|reflexivity].
Qed.

Theorem glif_xml_written (g : glif PD PL) root : glif_xml L P dbg g = Ok root -> glyph_written L P dbg g root.
Proof.
  unfold glif_xml. cbv zeta. intros H. apply bind_ok in H as (oc & H & X). injection X as <-.
  set (adv := match g_width g with Some w => [advance_xml w] | None => [] end).
  assert (match g_width g with Some w => [NElem (advance_xml w)] | None => [] end = map NElem adv) as -> by (subst adv; destruct (g_width g); reflexivity).
  assert (Forall (fun e => ename e = lit "advance") adv) as N1 by (subst adv; destruct (g_width g); repeat constructor).
  rewrite (map_NElem codepoint_xml), (map_NElem (anchor_xml L)), (map_NElem (guideline_xml L)).
  pose proof (Forall_map_name codepoint_xml (lit "unicode") (g_unicode g) (fun _ => eq_refl)) as N2.
  pose proof (Forall_map_name (anchor_xml L) _ (g_anchors g) anchor_name) as N3.
  destruct (outline_nodes_ok (g_outline g) (cs_vec (g_components g)) oc H) as (os & E4 & N4 & W4).
  rewrite E4. clear E4 H oc.
  destruct (image_nodes_ok (g_images g)) as (ims & -> & N5 & W5).
  pose proof (Forall_map_name (guideline_xml L) _ (g_guidelines g) guideline_name) as N6.
  set (nt := match g_note g with Some n => [Element (lit "note") [] [NText n]] | None => [] end).
  assert (match g_note g with Some n => [NElem (Element (lit "note") [] [NText n])] | None => [] end = map NElem nt) as -> by (subst nt; destruct (g_note g); reflexivity).
  assert (Forall (fun e => ename e = lit "note") nt) as N7 by (subst nt; destruct (g_note g); repeat constructor).
  destruct (lib_nodes_ok (g_lib g)) as (ls & -> & N8 & W8).
  set (us := map codepoint_xml (g_unicode g)) in *. set (an := map (anchor_xml L) (g_anchors g)) in *. set (gl := map (guideline_xml L) (g_guidelines g)) in *.
  rewrite <- !map_app. unfold glyph_written, named. cbn [echildren ename eattrs insert new_element attr_insert].
  match goal with |- context [map NElem ?l] => set (all := l) end.
  assert (forall n, children_named n (map NElem all) = children_named n (map NElem adv) ++ children_named n (map NElem us) ++ children_named n (map NElem an) ++
     children_named n (map NElem os) ++ children_named n (map NElem ims) ++ children_named n (map NElem gl) ++ children_named n (map NElem nt) ++ children_named n (map NElem ls)) as Hs.
  { intros n. subst all. rewrite !map_app, !children_named_app. reflexivity. }
  assert (children_named (lit "advance") (map NElem all) = adv) as ->.
  { rewrite Hs, (children_all _ adv N1), (children_none _ _ us N2), (children_none _ _ an N3), (children_none _ _ os N4), (children_none _ _ ims N5), (children_none _ _ gl N6), (children_none _ _ nt N7), (children_none _ _ ls N8) by discriminate. cbn [app]. now rewrite ?app_nil_r. }
  assert (children_named (lit "unicode") (map NElem all) = us) as ->.
  { rewrite Hs, (children_all _ us N2), (children_none _ _ adv N1), (children_none _ _ an N3), (children_none _ _ os N4), (children_none _ _ ims N5), (children_none _ _ gl N6), (children_none _ _ nt N7), (children_none _ _ ls N8) by discriminate. cbn [app]. now rewrite ?app_nil_r. }
  assert (children_named (lit "anchor") (map NElem all) = an) as ->.
  { rewrite Hs, (children_all _ an N3), (children_none _ _ adv N1), (children_none _ _ us N2), (children_none _ _ os N4), (children_none _ _ ims N5), (children_none _ _ gl N6), (children_none _ _ nt N7), (children_none _ _ ls N8) by discriminate. cbn [app]. now rewrite ?app_nil_r. }
  assert (children_named (lit "outline") (map NElem all) = os) as ->.
  { rewrite Hs, (children_all _ os N4), (children_none _ _ adv N1), (children_none _ _ us N2), (children_none _ _ an N3), (children_none _ _ ims N5), (children_none _ _ gl N6), (children_none _ _ nt N7), (children_none _ _ ls N8) by discriminate. cbn [app]. now rewrite ?app_nil_r. }
  assert (children_named (lit "image") (map NElem all) = ims) as ->.
  { rewrite Hs, (children_all _ ims N5), (children_none _ _ adv N1), (children_none _ _ us N2), (children_none _ _ an N3), (children_none _ _ os N4), (children_none _ _ gl N6), (children_none _ _ nt N7), (children_none _ _ ls N8) by discriminate. cbn [app]. now rewrite ?app_nil_r. }
  assert (children_named (lit "guideline") (map NElem all) = gl) as ->.
  { rewrite Hs, (children_all _ gl N6), (children_none _ _ adv N1), (children_none _ _ us N2), (children_none _ _ an N3), (children_none _ _ os N4), (children_none _ _ ims N5), (children_none _ _ nt N7), (children_none _ _ ls N8) by discriminate. cbn [app]. now rewrite ?app_nil_r. }
  assert (children_named (lit "note") (map NElem all) = nt) as ->.
  { rewrite Hs, (children_all _ nt N7), (children_none _ _ adv N1), (children_none _ _ us N2), (children_none _ _ an N3), (children_none _ _ os N4), (children_none _ _ ims N5), (children_none _ _ gl N6), (children_none _ _ ls N8) by discriminate. cbn [app]. now rewrite ?app_nil_r. }
  assert (children_named (lit "lib") (map NElem all) = ls) as ->.
  { rewrite Hs, (children_all _ ls N8), (children_none _ _ adv N1), (children_none _ _ us N2), (children_none _ _ an N3), (children_none _ _ os N4), (children_none _ _ ims N5), (children_none _ _ gl N6), (children_none _ _ nt N7) by discriminate. cbn [app]. now rewrite ?app_nil_r. }
  clear Hs. split; [reflexivity|]. split; [unfold attributes; reflexivity|]. split; [reflexivity|].
  split. { subst adv. destruct (g_width g); [|reflexivity]. eexists. split; [reflexivity|]. split; [unfold attributes; reflexivity|reflexivity]. }
  split. { subst us. apply Forall2_map_right. intros c. split; [unfold attributes; reflexivity|reflexivity]. }
  split. { subst an. apply Forall2_map_right, anchor_written_ok. }
  split; [assumption|]. split; [assumption|].
  split. { subst gl. apply Forall2_map_right, guideline_written_ok. }
  split; [|assumption]. subst nt. destruct (g_note g); reflexivity.
Qed.
End Written.

(** ** Repeated saving *)
Section Cycles.
Context (L : numlib) {PD : Type} (dbg : bool).
Hypothesis HL : forall f, f32_of_iof (iof_of_f32 L f) = f.

Lemma stored_exact (c : contour PD) : cubic_contour_form c -> storable c ->
  exists c', stored L dbg c c' /\ forall p t, c = p :: t -> (pptype p <> Curve -> c' = c) /\ (pptype p = Curve -> one_earlier c c').
Proof.
  intros Hc Hs. destruct (write_read_cubic L HL dbg (3 * length c + 2) c Hc) as (gps & c' & H1 & H2 & H3).
  exists c'. split. { exists gps. split; [|assumption]. now replace (3 * length c + 3) with (S (3 * length c + 2)) by lia. }
  intros p t E. destruct (H3 p t E) as [Ha Hb]. split.
  - intros X. apply storable_exact; auto.
  - intros X. destruct (Hb X) as (c1 & He & Hst). assert (c' = c1) as ->; [|assumption].
    apply storable_exact; [|assumption]. eapply storable_earlier; eauto.
Qed.
Lemma stored_unique (c c1 c2 : contour PD) : stored L dbg c c1 -> stored L dbg c c2 -> c1 = c2.
Proof. intros (g & H1 & H2) (g' & H3 & H4). congruence. Qed.

(** One more cycle at the end. *)
Lemma stored_times_snoc k (c c1 c2 : contour PD) : stored_times L dbg k c c1 -> stored L dbg c1 c2 -> stored_times L dbg (S k) c c2.
Proof.
  induction 1 as [c|k c d e H _ IH]; intros H2.
  - econstructor; [exact H2|constructor].
  - econstructor; [exact H|]. now apply IH.
Qed.
Lemma stored_times_unique k (c c1 c2 : contour PD) : stored_times L dbg k c c1 -> stored_times L dbg k c c2 -> c1 = c2.
Proof.
  intros H. revert c2. induction H as [c|k c d e H _ IH]; intros c2 H2; inversion H2 as [|? ? d' ? H3 H4]; subst; [reflexivity|].
  apply IH. now rewrite (stored_unique _ _ _ H H3).
Qed.

Lemma stays (c : contour PD) p t k : cubic_contour_form c -> storable c -> c = p :: t -> pptype p <> Curve -> stored_times L dbg k c c.
Proof.
  intros Hc Hs E Hp. destruct (stored_exact c Hc Hs) as (c' & H1 & H2). destruct (H2 p t E) as [H3 _]. rewrite (H3 Hp) in H1.
  induction k; [constructor|econstructor; eassumption].
Qed.

(** Moving back over [r], a tail of curve points. *)
Lemma moves_back (r m : contour PD) : cubic_contour_form (m ++ r) -> storable (m ++ r) ->
  (forall p t, m ++ r = p :: t -> pptype p = Curve) -> Forall (fun p => pptype p = Curve) (tl r) ->
  stored_times L dbg (length r) (m ++ r) (r ++ m) /\ (r <> [] -> cubic_contour_form (r ++ m)) /\ storable (r ++ m).
Proof.
  revert m. induction r as [|x r IH] using rev_ind; intros m Hc Hs Hf Hr.
  - rewrite app_nil_r in *. split; [constructor|]. split; [congruence|assumption].
  - rewrite app_assoc in Hc, Hs, Hf. destruct (stored_exact _ Hc Hs) as (c' & H1 & H2).
    destruct ((m ++ r) ++ [x]) as [|p t] eqn:E; [destruct (m ++ r); discriminate|]. rewrite <- E in *.
    destruct (H2 p t E) as [_ H3]. specialize (H3 (Hf p t E)). pose proof (storable_earlier _ _ H3 Hs) as Hs'.
    destruct H3 as (x' & m' & E' & ->). apply app_inj_tail in E' as [<- <-].
    assert (cubic_contour_form (x :: m ++ r)) as Hc'.
    { destruct Hc as (p' & t' & Ep & Hp & Ht). rewrite Ep in E. injection E as -> ->. pose proof (Hf p t Ep) as HC.
      assert (Forall (fun q => pptype q = Line \/ pptype q = Curve) (p :: t)) as HA by (constructor; [auto|assumption]).
      rewrite <- Ep in HA. apply Forall_app in HA as [HA HB]. inversion HB; subst. exists x, (m ++ r). split; [reflexivity|]. split; [tauto|assumption]. }
    assert (r = [] \/ r <> []) as [->|Hne] by (destruct r; [left; reflexivity|right; discriminate]).
    + cbn [app length]. rewrite app_nil_r in *. split; [|split; [auto|assumption]]. econstructor; [exact H1|constructor].
    + destruct (IH (x :: m)) as (K1 & K2 & K3).
      * assumption.
      * assumption.
      * cbn. intros q u Eq. injection Eq as <- <-. rewrite Forall_forall in Hr. apply Hr. destruct r as [|y r]; [congruence|]. cbn. apply in_or_app. right. now left.
      * rewrite Forall_forall in *. intros q Hq. apply Hr. destruct r as [|y r]; [destruct Hq|]. cbn in *. apply in_or_app. now left.
      * rewrite <- app_assoc. cbn [app]. split; [|split; [intros _; now apply K2|assumption]].
        rewrite app_length, Nat.add_comm. cbn [length plus]. rewrite app_assoc. econstructor; [exact H1|exact K1].
Qed.
Lemma stored_times_app k l (c c1 c2 : contour PD) : stored_times L dbg k c c1 -> stored_times L dbg l c1 c2 -> stored_times L dbg (k + l) c c2.
Proof. induction 1; intros; cbn; [assumption|]. econstructor; eauto. Qed.

(** Only curves: the start keeps moving. *)
Lemma all_curves_cycle k : forall (c : contour PD), c <> [] -> Forall (fun p => pptype p = Curve) c -> storable c ->
  exists c', stored_times L dbg k c c' /\ starting_earlier k c c'.
Proof.
  intros c Hne Hall Hs.
  assert (0 < length c) as Hl by (destruct c; [congruence|cbn; lia]).
  assert (forall d : contour PD, d <> [] -> Forall (fun p => pptype p = Curve) d -> cubic_contour_form d) as HF.
  { intros d Hd Ha. destruct d as [|p t]; [congruence|]. inversion Ha; subst. exists p, t. split; [reflexivity|]. split; [auto|].
    eapply Forall_impl; [|eassumption]. cbn. auto. }
  assert (forall n, n <= length c -> stored_times L dbg n c (skipn (length c - n) c ++ firstn (length c - n) c)) as H1.
  { intros n Hn. set (m := firstn (length c - n) c). set (r := skipn (length c - n) c).
    assert (m ++ r = c) as E by apply firstn_skipn. assert (length r = n) as El by (subst r; rewrite skipn_length; lia).
    destruct (moves_back r m) as (K & _ & _).
    - rewrite E. auto.
    - now rewrite E.
    - rewrite E. intros p t ->. now inversion Hall.
    - rewrite <- E in Hall. apply Forall_app in Hall as [_ Hall]. destruct r; [constructor|now inversion Hall].
    - now rewrite E, El in K. }
  assert (forall q, stored_times L dbg (q * length c) c c) as H2.
  { induction q as [|q IH]; [constructor|]. cbn [mult]. specialize (H1 (length c) (le_n _)). rewrite Nat.sub_diag in H1. cbn [skipn firstn] in H1. rewrite app_nil_r in H1.
    eapply stored_times_app; eassumption. }
  pose proof (Nat.mod_upper_bound k (length c)) as Hk. assert (k mod length c < length c) as Hk' by (apply Hk; lia).
  exists (skipn (length c - k mod length c) c ++ firstn (length c - k mod length c) c). split.
  - rewrite (Nat.div_mod k (length c)) at 1 by lia. rewrite Nat.mul_comm. eapply stored_times_app; [apply H2|]. apply H1. lia.
  - exists (firstn (length c - k mod length c) c), (skipn (length c - k mod length c) c). split; [symmetry; apply firstn_skipn|]. split; [reflexivity|].
    rewrite skipn_length. lia.
Qed.

Lemma tl_skipn {A} (d : list A) : forall j, tl (skipn j d) = skipn (S j) d.
Proof. induction d as [|y d IH]; intros [|j]; try reflexivity. cbn [skipn]. rewrite IH. reflexivity. Qed.

(** The start moves back to the nearest point that is not on a curve, and stays. *)
Lemma stops_at_line k (p : point PD) l q r : cubic_contour_form (p :: l ++ q :: r) -> storable (p :: l ++ q :: r) ->
  pptype p = Curve -> pptype q <> Curve -> Forall (fun x => pptype x = Curve) r ->
  exists c', stored_times L dbg k (p :: l ++ q :: r) c' /\
    exists m s, p :: l ++ q :: r = m ++ s /\ c' = s ++ m /\ length s = Nat.min k (S (length r)).
Proof.
  intros Hc Hs Hp Hq Hr. set (c := p :: l ++ q :: r) in *.
  assert (length c = S (length l + S (length r))) as Hlen by (subst c; cbn; now rewrite app_length).
  assert (forall n, n <= S (length r) -> let m := firstn (length c - n) c in let s := skipn (length c - n) c in
     m ++ s = c /\ length s = n /\ stored_times L dbg n c (s ++ m) /\ (s <> [] -> cubic_contour_form (s ++ m)) /\ storable (s ++ m)) as H1.
  { intros n Hn m s. assert (m ++ s = c) as E by apply firstn_skipn. assert (length s = n) as El by (subst s; rewrite skipn_length; lia).
    split; [assumption|]. split; [assumption|].
    destruct (moves_back s m) as (K & K1 & K2).
    - now rewrite E.
    - now rewrite E.
    - rewrite E. subst c. intros p' t E'. now injection E' as <- _.
    - rewrite Forall_forall. intros x Hx. rewrite Forall_forall in Hr. apply Hr.
      (* the tail of [s] lies within [r] *)
      assert (tl s = skipn (S (length c - n)) c) as Et.
      { subst s. apply tl_skipn. }
      rewrite Et in Hx. subst c. cbn [skipn] in Hx.
      replace (length (p :: l ++ q :: r) - n) with (length l + S (S (length r) - n)) in Hx by lia.
      rewrite skipn_app in Hx. rewrite skipn_all2 in Hx by lia. cbn [app] in Hx. replace (length l + S (S (length r) - n) - length l) with (S (S (length r) - n)) in Hx by lia.
      cbn [skipn] in Hx. rewrite <- (firstn_skipn (S (length r) - n) r). apply in_or_app. now right.
    - rewrite E, El in K. auto. }
  destruct (le_lt_dec k (S (length r))) as [Hk|Hk].
  - destruct (H1 k Hk) as (E & El & K & _). eexists. split; [exact K|]. do 2 eexists. split; [symmetry; exact E|]. split; [reflexivity|]. lia.
  - destruct (H1 (S (length r)) (le_n _)) as (E & El & K & K1 & K2).
    assert (skipn (length c - S (length r)) c = q :: r) as Es.
    { subst c. replace (length (p :: l ++ q :: r) - S (length r)) with (S (length l)) by lia. cbn [skipn]. rewrite skipn_app, skipn_all, Nat.sub_diag. reflexivity. }
    exists ((q :: r) ++ firstn (length c - S (length r)) c). split.
    + replace k with (S (length r) + (k - S (length r))) by lia. eapply stored_times_app; [rewrite Es in K; exact K|].
      rewrite Es in K1, K2. eapply stays; [apply K1; discriminate|assumption|reflexivity|assumption].
    + exists (firstn (length c - S (length r)) c), (q :: r). rewrite Es in E. split; [now symmetry|]. split; [reflexivity|]. cbn. lia.
Qed.
End Cycles.
