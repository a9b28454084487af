(** Reading what was written for a glyph. *)
Require Import Coq.Strings.String Coq.Lists.List Coq.NArith.NArith Coq.ZArith.ZArith Coq.Bool.Bool Coq.Floats.SpecFloat Coq.micromega.Lia.
Require Import Verif.Model.Base Verif.Model.Text Verif.Model.Float Verif.Model.Num Verif.Model.Point Verif.Model.Contour
  Verif.Model.Create Verif.Model.Conv Verif.Model.Strings Verif.Model.Pedantry Verif.Model.Color Verif.Model.Xml Verif.Model.Parts
  Verif.Model.Read Verif.Model.Write
  Verif.Spec.TextSpec Verif.Spec.ContourSpec Verif.Spec.OutlineSpec Verif.Spec.GlyphSpec
  Verif.Facts.NamesFacts Verif.Facts.StringsFacts Verif.Facts.TextFacts Verif.Facts.ColorFacts Verif.Facts.ContourFacts Verif.Facts.CreateFacts Verif.Facts.ConvFacts Verif.Facts.XmlFacts.
Import ListNotations.

(** Attributes. *)
Lemma get_insert k v e k' : get (insert k v e) k' = if str_eqb (lit k') (lit k) then Some v else get e k'.
Proof.
  destruct e as [n a c]. unfold get, insert. cbn [eattrs].
  induction a as [|[k1 v1] a IH]; cbn [attr_insert attr_get].
  - destruct (str_eqb (lit k') (lit k)); reflexivity.
  - destruct (str_eqb_spec (lit k) k1) as [<-|Hk]; cbn [attr_get].
    + destruct (str_eqb (lit k') (lit k)); reflexivity.
    + rewrite IH. destruct (str_eqb_spec (lit k') k1) as [->|H1]; [|reflexivity].
      destruct (str_eqb_spec k1 (lit k)) as [X|X]; [congruence|reflexivity].
Qed.
Lemma get_insert_opt k o e k' :
  get (insert_opt k o e) k' = if str_eqb (lit k') (lit k) then match o with Some v => Some v | None => get e k' end else get e k'.
Proof. destruct o as [v|]; cbn [insert_opt]; [apply get_insert|]. destruct (str_eqb _ _); reflexivity. Qed.
Lemma get_new n k : get (new_element n) k = None. Proof. reflexivity. Qed.
Lemma ename_insert k v e : ename (insert k v e) = ename e. Proof. now destruct e. Qed.
Lemma ename_insert_opt k v e : ename (insert_opt k v e) = ename e. Proof. destruct v; [apply ename_insert|reflexivity]. Qed.

Ltac attrs := repeat (rewrite get_insert || rewrite get_insert_opt || rewrite get_new);
  repeat match goal with |- context [str_eqb (lit ?a) (lit ?b)] =>
    let v := eval vm_compute in (str_eqb (lit a) (lit b)) in change (str_eqb (lit a) (lit b)) with v end; cbv iota.

(** Groups of children. *)
Lemma children_named_map {A} n m (f : A -> element) l : (forall x, ename (f x) = m) ->
  children_named n (map (fun x => NElem (f x)) l) = if str_eqb m n then map f l else [].
Proof.
  intros Hf. induction l as [|x l IH]; [now destruct (str_eqb m n)|]. cbn [map]. rewrite children_named_cons, Hf, IH.
  destruct (str_eqb m n); reflexivity.
Qed.

Lemma mapM_restore {A B C} (f : B -> res C) (w : A -> B) (R : A -> C -> Prop) l :
  (forall x, In x l -> exists y, f (w x) = Ok y /\ R x y) ->
  exists ys, mapM f (map w l) = Ok ys /\ Forall2 R l ys.
Proof.
  induction l as [|x l IH]; intros H; [exists []; split; [reflexivity|constructor]|].
  destruct (H x) as (y & Hy & HR); [now left|]. destruct IH as (ys & Hys & HF); [intros z Hz; apply H; now right|].
  exists (y :: ys). cbn [map mapM]. rewrite Hy. cbn [bind]. rewrite Hys. split; [reflexivity|now constructor].
Qed.

Lemma scalar_is c : scalar c <-> is_scalar c = true.
Proof. unfold scalar, is_scalar. lia. Qed.

Section Restore.
Context (L : numlib) {PD PL : Type} (pd0 : PD) (P : plistlib PL).

Lemma legible_read i : legible L i -> exists j, iof_read L (iof_show L i) = Some j /\ same_number j i.
Proof. exact (fun H => H). Qed.
Lemma same_number_value i j : same_number i j -> f32_of_iof i = f32_of_iof j.
Proof. destruct i, j; cbn; congruence. Qed.
Lemma legible_anchor_read f : legible_anchor_f32 L f -> exists j, iof_read L (f32_show L f) = Some j /\ f32_of_iof j = f.
Proof. unfold legible_anchor_f32. intros H. destruct (iof_read L (f32_show L f)) as [j|]; [|discriminate]. cbn in H. injection H as H. eauto. Qed.

Lemma advance_restored ped w : (w < 2 ^ 64)%N -> read_advance L ped (advance_xml w) = Ok w.
Proof.
  intros H. unfold read_advance, advance_xml. attrs. cbn [ok_or bind]. rewrite parse_show_u64; [reflexivity|].
  unfold u64_max. lia.
Qed.

Lemma unicode_restored c : scalar c -> read_unicode (codepoint_xml c) = Ok c.
Proof.
  intros H. unfold read_unicode, codepoint_xml. attrs. cbn [ok_or bind]. rewrite parse_show_hex.
  - cbn [ok_or bind]. unfold char_from_u32. apply scalar_is in H. now rewrite H.
  - unfold scalar in H. unfold u32_max. lia.
Qed.

Lemma anchor_xml_restored ped a : anchor_ok L a -> ped_mend ped = MendAlways -> is_sfnt (ped_level ped) = false ->
  exists a', read_anchor L pd0 ped (anchor_xml L a) = Ok a' /\ anchor_restored a a' /\ an_data a' = pd0.
Proof.
  intros (Hx & Hy & Hc & Ht) Hm Hl. destruct (legible_anchor_read _ Hx) as (jx & Ex & Vx). destruct (legible_anchor_read _ Hy) as (jy & Ey & Vy).
  unfold read_anchor, anchor_xml. attrs. cbn [ok_or bind]. rewrite Ex. cbn [ok_or bind]. rewrite Ey. cbn [ok_or bind].
  unfold anchor_from_glif. rewrite Hm. cbn [ga_x ga_y ga_class negb andb]. unfold maybe_round. rewrite Hl. cbn [andb].
  rewrite Vx, Vy.
  assert (match (match an_class a with Some v => Some v | None => None end) with
          | Some n => match glif_string_len_one n with Ok s => Some s | _ => None end | None => None end = an_class a) as ->.
  { destruct (an_class a) as [s|]; [|reflexivity]. destruct (Hc s eq_refl) as [Hne Hctl].
    now rewrite (glif_string_len_one_ok s Hne Hctl). }
  eexists. split; [reflexivity|]. unfold anchor_restored. cbn. repeat split. now rewrite Ht.
Qed.


Lemma color_restored c : legible_color L c -> exists c', color_parse L (color_show L c) = Ok c' /\ same_color (Some c') (Some c).
Proof. intros H. apply (color_round_trip_by L same_number). exact H. Qed.

Lemma read_color_restored e o : get e "color" = option_map (color_show L) o ->
  (forall c, o = Some c -> legible_color L c) -> exists o', read_color L e = Ok o' /\ same_color o' o.
Proof.
  intros E H. unfold read_color. rewrite E. destruct o as [c|]; cbn [option_map].
  - destruct (color_restored c (H c eq_refl)) as (c' & -> & Hc). exists (Some c'). split; [reflexivity|exact Hc].
  - exists None. now split.
Qed.

Lemma guideline_xml_restored g : guideline_ok L g ->
  exists g', read_guideline L pd0 (guideline_xml L g) = Ok g' /\ guideline_restored g g' /\ gl_data g' = pd0.
Proof.
  intros (Hx & Hy & Ha & Hc). destruct (legible_read _ Ha) as (ja & Ea & Va).
  destruct (read_color_restored (guideline_xml L g) (gl_color g)) as (o & Eo & Vo); [|exact Hc|].
  { unfold guideline_xml. attrs. now destruct (gl_color g). }
  unfold read_guideline. rewrite Eo. unfold guideline_xml. attrs. cbn [ok_or bind]. rewrite Hx. cbn [ok_or bind]. rewrite Hy. cbn [ok_or bind].
  rewrite Ea. cbn [ok_or bind]. eexists. split; [reflexivity|]. unfold guideline_restored. cbn. repeat split; try assumption.
  - now destruct (gl_name g).
  - now destruct (gl_identifier g).
Qed.

Lemma load_member_restored e k msg cur i : get e k = Some (iof_show L i) -> legible L i ->
  exists j, load_member L e k msg cur = Ok j /\ same_number j i.
Proof.
  intros E H. destruct (legible_read i H) as (j & Ej & Vj). exists j. unfold load_member. rewrite E, Ej. now split.
Qed.

Lemma load_matrix_restored e m m0 : Forall (legible L) (members m) ->
  get e "xScale" = Some (iof_show L (m_xScale m)) -> get e "xyScale" = Some (iof_show L (m_xyScale m)) ->
  get e "yxScale" = Some (iof_show L (m_yxScale m)) -> get e "yScale" = Some (iof_show L (m_yScale m)) ->
  get e "xOffset" = Some (iof_show L (m_xOffset m)) -> get e "yOffset" = Some (iof_show L (m_yOffset m)) ->
  exists m', load_matrix L e m0 = Ok m' /\ same_matrix m' m.
Proof.
  intros Hm E1 E2 E3 E4 E5 E6. unfold members in Hm.
  inversion_clear Hm as [|? ? L1 Hm1]; inversion_clear Hm1 as [|? ? L2 Hm2]; inversion_clear Hm2 as [|? ? L3 Hm3];
  inversion_clear Hm3 as [|? ? L4 Hm4]; inversion_clear Hm4 as [|? ? L5 Hm5]; inversion_clear Hm5 as [|? ? L6 _].
  unfold load_matrix.
  edestruct (load_member_restored e "xScale") as (j1 & -> & V1); [exact E1|exact L1|]. cbn [bind].
  edestruct (load_member_restored e "xyScale") as (j2 & -> & V2); [exact E2|exact L2|]. cbn [bind].
  edestruct (load_member_restored e "yxScale") as (j3 & -> & V3); [exact E3|exact L3|]. cbn [bind].
  edestruct (load_member_restored e "yScale") as (j4 & -> & V4); [exact E4|exact L4|]. cbn [bind].
  edestruct (load_member_restored e "xOffset") as (j5 & -> & V5); [exact E5|exact L5|]. cbn [bind].
  edestruct (load_member_restored e "yOffset") as (j6 & -> & V6); [exact E6|exact L6|]. cbn [bind].
  eexists. split; [reflexivity|]. unfold same_matrix, members. cbn. repeat constructor; assumption.
Qed.

Lemma component_xml_restored c : component_ok L c ->
  exists c', read_component L (component_xml L c) = Ok c' /\ component_restored c c' /\ c_filename c' = None.
Proof.
  intros H. unfold read_component.
  destruct (load_matrix_restored (component_xml L c) (c_matrix c) (c_matrix (component_new L)) H) as (m' & -> & Vm);
    try (unfold component_xml, write_matrix; attrs; reflexivity).
  unfold component_xml, write_matrix. attrs. cbn [bind ok_or]. eexists. split; [reflexivity|].
  unfold component_restored. cbn. repeat split; try assumption. now destruct (c_identifier c).
Qed.

Lemma image_xml_restored i : image_ok L i ->
  exists e i', image_try_xml L i = Ok e /\ ename e = lit "image" /\ read_image L e = Ok i' /\ image_restored i i' /\ i_color i' = None.
Proof.
  intros [Hf H]. unfold image_try_xml. destruct (i_filename i) as [s|] eqn:Ef; [|congruence].
  eexists. edestruct (load_matrix_restored) as (m' & Em & Vm); [exact H| | | | | | |].
  7:{ eexists. split; [reflexivity|]. split; [|split].
      - unfold write_matrix. rewrite !ename_insert, ename_insert_opt, ename_insert. reflexivity.
      - unfold read_image. unfold write_matrix at 1. attrs. cbn [ok_or bind]. rewrite Em. cbn [bind].
        unfold read_color, write_matrix. attrs. cbn [bind]. reflexivity.
      - unfold image_restored. cbn. split; [|reflexivity]. rewrite Ef. repeat split; try assumption. now destruct (i_identifier i). }
  all: unfold write_matrix; attrs; reflexivity.
Qed.

(** Points. *)
Definition same_listed (g g' : glifpoint) : Prop := listed g' = listed g.

Lemma point_xml_restored dbg g : legible L (gx g) -> legible L (gy g) -> ptype_is_valid (gptype g) = true ->
  (gptype g = OffCurve -> gsmooth g = false) ->
  exists e g', gp_xml L dbg g = Ok e /\ ename e = lit "point" /\ read_point L e = Ok g' /\ same_listed g g'.
Proof.
  intros Hx Hy Ht Hs. destruct (legible_read _ Hx) as (jx & Ex & Vx). destruct (legible_read _ Hy) as (jy & Ey & Vy).
  unfold gp_xml.
  assert (dbg && ptype_eqb (gptype g) OffCurve && gsmooth g = false) as Hd.
  { destruct dbg; [|reflexivity]. cbn. destruct (ptype_eqb_spec (gptype g) OffCurve) as [E|]; [|reflexivity]. cbn. auto. }
  set (e0 := insert "y" (iof_show L (gy g)) (insert "x" (iof_show L (gx g)) (new_element "point"))).
  set (e1 := if str_eqb (ptype_show (gptype g)) (lit "offcurve") then e0 else insert "type" (ptype_show (gptype g)) e0).
  assert (forall s, ename (if gsmooth g then insert "smooth" s (insert_opt "name" (gname g) e1) else insert_opt "name" (gname g) e1) = lit "point") as Hn.
  { intros s. assert (ename e1 = lit "point") as X by (unfold e1; destruct (str_eqb _ _); unfold e0; rewrite !ename_insert; reflexivity).
    destruct (gsmooth g); [rewrite ename_insert|]; rewrite ename_insert_opt; exact X. }
  set (e2 := if gsmooth g then insert "smooth" (lit "yes") (insert_opt "name" (gname g) e1) else insert_opt "name" (gname g) e1).
  exists e2, (mkGP jx jy (gsmooth g) (gname g) (gptype g)). split; [|split; [|split]].
  - unfold e2. destruct (gsmooth g) eqn:Es; [|reflexivity]. rewrite andb_true_r in Hd. now rewrite Hd.
  - apply Hn.
  - assert (get e2 "x" = Some (iof_show L (gx g)) /\ get e2 "y" = Some (iof_show L (gy g)) /\
            get e2 "name" = gname g /\
            get e2 "type" = (if str_eqb (ptype_show (gptype g)) (lit "offcurve") then None else Some (ptype_show (gptype g))) /\
            get e2 "smooth" = (if gsmooth g then Some (lit "yes") else None)) as (G1 & G2 & G3 & G4 & G5).
    { unfold e2, e1, e0. destruct (gsmooth g), (str_eqb (ptype_show (gptype g)) (lit "offcurve")); attrs;
        repeat split; now destruct (gname g). }
    unfold read_point. rewrite G1, G2, G3, G4, G5. cbn [ok_or bind]. rewrite Ex. cbn [ok_or bind]. rewrite Ey. cbn [ok_or bind].
    assert (ptype_of_str (match (if str_eqb (ptype_show (gptype g)) (lit "offcurve") then None else Some (ptype_show (gptype g))) with
                          | Some s => s | None => lit "offcurve" end) = gptype g) as ->.
    { destruct (gptype g); try discriminate Ht; reflexivity. }
    rewrite Ht. do 2 f_equal. destruct (gsmooth g) eqn:Es; [|reflexivity].
    destruct (ptype_eqb_spec (gptype g) OffCurve) as [E|E]; [|reflexivity]. discriminate (Hs E).
  - unfold same_listed, listed, position. cbn. apply same_number_value in Vx, Vy. now rewrite Vx, Vy.
Qed.

Lemma contour_xml_listed dbg gps :
  (forall g, In g gps -> legible L (gx g) /\ legible L (gy g) /\ ptype_is_valid (gptype g) = true /\ (gptype g = OffCurve -> gsmooth g = false)) ->
  exists e gps', gcontour_xml L dbg gps = Ok e /\ ename e = lit "contour" /\
     mapM (read_point L) (named "point" e) = Ok gps' /\ Forall2 same_listed gps gps'.
Proof.
  intros H. unfold gcontour_xml.
  assert (exists es gps', mapM (gp_xml L dbg) gps = Ok es /\ Forall (fun e => ename e = lit "point") es /\
            mapM (read_point L) es = Ok gps' /\ Forall2 same_listed gps gps') as (es & gps' & E1 & E2 & E3 & E4).
  { induction gps as [|g gps IH]; [exists [], []; repeat split; constructor|].
    destruct (H g) as (Hx & Hy & Ht & Hs); [now left|].
    destruct (point_xml_restored dbg g Hx Hy Ht Hs) as (e & g' & A1 & A2 & A3 & A4).
    destruct IH as (es & gps' & B1 & B2 & B3 & B4); [intros x Hx'; apply H; now right|].
    exists (e :: es), (g' :: gps'). cbn [mapM]. rewrite A1, A3. cbn [bind]. rewrite B1, B3. cbn [bind].
    repeat split; try constructor; assumption. }
  rewrite E1. cbn [bind]. eexists _, gps'. split; [reflexivity|]. split; [reflexivity|]. split; [|assumption].
  unfold named. cbn [echildren].
  assert (children_named (lit "point") (map NElem es) = es) as ->; [|assumption].
  clear -E2. induction E2 as [|e es He _ IH]; [reflexivity|]. cbn [map]. now rewrite children_named_cons, He, IH.
Qed.

(** The readers of cubic contours only look at what is listed. *)
Lemma handle_same o o' : match o, o' with Some g, Some g' => same_listed g g' | None, None => True | _, _ => False end ->
  handle_of_gp o' = handle_of_gp o.
Proof.
  destruct o as [g|], o' as [g'|]; intros H; try contradiction; [|reflexivity]. unfold same_listed, listed, position in H. injection H as H1 H2 H3 H4 H5.
  cbn. now rewrite H1, H2.
Qed.
Lemma pop_same s s' : Forall2 same_listed s s' ->
  handle_of_gp (fst (pop s')) = handle_of_gp (fst (pop s)) /\ Forall2 same_listed (snd (pop s)) (snd (pop s')).
Proof. intros H. destruct H as [|g g' s s' Hg Hs]; cbn; [now split|]. split; [now apply (handle_same (Some g) (Some g'))|assumption]. Qed.

Definition same_state (r r' : res (contour PD * list glifpoint)) : Prop :=
  match r, r' with
  | Ok (c, s), Ok (c', s') => c' = c /\ Forall2 same_listed s s'
  | Panic, Panic => True
  | Err e, Err e' => e = e'
  | _, _ => False
  end.

Lemma cubic_step_same c s s' g g' : Forall2 same_listed s s' -> same_listed g g' ->
  same_state (cubic_step (c, s) g) (cubic_step (c, s') g').
Proof.
  intros Hs Hg. pose proof Hg as Hg'. unfold same_listed, listed, position in Hg'. injection Hg' as H1 H2 H3 H4 H5.
  unfold cubic_step. rewrite H4.
  assert (forall t, same_state
    (let '(h1, stack) := pop s in let '(h2, stack0) := pop stack in
     Ok (map_last (fun p => with_a p (handle_of_gp h1)) c ++
         [mkPoint (f32_of_iof (gx g)) (f32_of_iof (gy g)) (handle_of_gp h1) (handle_of_gp h2) (gname g) t (gsmooth g) None], stack0))
    (let '(h1, stack) := pop s' in let '(h2, stack0) := pop stack in
     Ok (map_last (fun p => with_a p (handle_of_gp h1)) c ++
         [mkPoint (f32_of_iof (gx g')) (f32_of_iof (gy g')) (handle_of_gp h1) (handle_of_gp h2) (gname g') t (gsmooth g') None], stack0))) as X.
  { intros t. destruct (pop_same s s' Hs) as [E1 F1]. destruct (pop s) as [a1 r1], (pop s') as [a1' r1']. cbn [fst snd] in *.
    destruct (pop_same r1 r1' F1) as [E2 F2]. destruct (pop r1) as [a2 r2], (pop r1') as [a2' r2']. cbn [fst snd] in *.
    cbn. split; [|assumption]. now rewrite E1, E2, H1, H2, H3, H5. }
  destruct (gptype g); try (apply X); cbn; auto.
  split; [reflexivity|]. apply Forall2_app; [assumption|]. now repeat constructor.
Qed.

Lemma cubic_loop_same gps : forall gps' c s s', Forall2 same_listed gps gps' -> Forall2 same_listed s s' ->
  same_state (cubic_loop (c, s) gps) (cubic_loop (c, s') gps').
Proof.
  induction gps as [|g gps IH]; intros gps' c s s' Hg Hs.
  - inversion Hg. subst. cbn. now split.
  - inversion Hg as [|? g' ? r' Hgg Hr]. subst. cbn [cubic_loop].
    pose proof (cubic_step_same c s s' g g' Hs Hgg) as X.
    destruct (cubic_step (c, s) g) as [[c1 s1]|e|], (cubic_step (c, s') g') as [[c2 s2]|e'|]; cbn in X; try contradiction; cbn [bind].
    + destruct X as [-> X]. now apply IH.
    + now subst.
    + exact I.
Qed.

Definition cubic_finish (st : contour PD * list glifpoint) : res (contour PD) :=
  let '(contour, stack) := st in
  let '(h1, stack) := pop stack in
  let '(h2, _) := pop stack in
  let contour := map_last (fun p => with_a p (handle_of_gp h1)) contour in
  let contour :=
    match contour with
    | p :: _ =>
        if negb (ptype_eqb (pptype p) Move)
        then map_first (fun p => with_b p (handle_of_gp h2)) contour
        else contour
    | [] => contour
    end in
  match contour with
  | [p] => if ptype_eqb (pptype p) Move then Ok [] else Ok contour
  | _ => Ok contour
  end.
Lemma cubic_contour_finish gc : cubic_contour gc = bind (cubic_loop (([] : contour PD), []) gc) cubic_finish.
Proof. reflexivity. Qed.
Lemma cubic_finish_same c s s' : Forall2 same_listed s s' -> cubic_finish (c, s') = cubic_finish (c, s).
Proof.
  intros X. unfold cubic_finish. destruct (pop_same s s' X) as [E1 F1]. destruct (pop s) as [a1 r1], (pop s') as [a1' r1']. cbn [fst snd] in *.
  destruct (pop_same r1 r1' F1) as [E2 F2]. destruct (pop r1) as [a2 r2], (pop r1') as [a2' r2']. cbn [fst snd] in *.
  now rewrite E1, E2.
Qed.

Lemma contour_of_glif_same gps gps' g t : gps = g :: t -> (gptype g = Move \/ gptype g = Line \/ gptype g = Curve) ->
  Forall2 same_listed gps gps' -> contour_of_glif (PD:=PD) L gps' = contour_of_glif L gps.
Proof.
  intros -> Hg H. inversion H as [|? g' ? t' Hgg Ht]. subst.
  assert (gptype g' = gptype g) as Et by (unfold same_listed, listed in Hgg; congruence).
  assert (cubic_contour (PD:=PD) (g' :: t') = cubic_contour (g :: t)) as X.
  { rewrite !cubic_contour_finish. pose proof (cubic_loop_same (g :: t) (g' :: t') [] [] [] H (Forall2_nil _)) as X.
    match type of X with same_state ?a ?b => destruct a as [[c1 s1]|e|], b as [[c2 s2]|e'|] end; cbn [same_state] in X; try contradiction; cbn [bind].
    - destruct X as [-> X]. now apply cubic_finish_same.
    - now subst.
    - reflexivity. }
  unfold contour_of_glif. rewrite Et. destruct Hg as [E|[E|E]]; rewrite E; exact X.
Qed.

(** Everything written for a contour comes from one of its points. *)
Lemma interleave3_in {A} (a : list A) : forall b c x, In x (interleave3 a b c) -> In x a \/ In x b \/ In x c.
Proof.
  induction a as [|u a IH]; intros [|v b] [|w c] x H; cbn in H; try contradiction.
  destruct H as [<-|[<-|[<-|H]]]; cbn; auto. apply IH in H. intuition.
Qed.
Lemma rotate_right1_in {A} (l : list A) x : In x (rotate_right1 l) <-> In x l.
Proof.
  destruct l as [|y l] using rev_ind; [reflexivity|]. unfold rotate_right1. rewrite rev_app_distr. cbn. rewrite rev_involutive, in_app_iff. cbn. tauto.
Qed.
Lemma cleanup_in dbg c k x : cleanup_offcurves dbg c = Ok k -> In x k -> In x c.
Proof.
  unfold cleanup_offcurves. destruct (_ && _); [discriminate|]. destruct (mapM _ _) as [kss| |]; try discriminate. cbn [bind].
  destruct (_ && _); [discriminate|]. intros H Hx. injection H as <-. apply in_map_iff in Hx as ([i y] & <- & Hy).
  apply filter_In in Hy as [Hy _]. now apply in_combine_r in Hy.
Qed.
Lemma rotate_in f : forall l k x, rotate_to_oncurve f l = Some (Ok k) -> In x k -> In x l.
Proof.
  induction f as [|f IH]; intros [|g l] k x H Hx; cbn [rotate_to_oncurve] in H; try discriminate.
  - destruct (ptype_eqb _ _); [discriminate|]. now injection H as <-.
  - destruct (ptype_eqb _ _); [|now injection H as <-]. apply (rotate_right1_in (g :: l)). eapply IH; eassumption.
Qed.
Lemma into_glifpoints_in dbg f (c : contour PD) gps g : into_glifpoints L dbg f c = Some (Ok gps) -> In g gps ->
  exists p, In p c /\ (g = gp_of_point L p \/ exists w, g = gp_from_handle L p w).
Proof.
  unfold into_glifpoints. destruct c as [|p c]; [discriminate|].
  destruct (cleanup_offcurves dbg _) as [k| |] eqn:E; try discriminate. intros H Hg.
  pose proof (rotate_in _ _ _ _ H Hg) as H1. pose proof (cleanup_in _ _ _ _ E H1) as H2.
  apply interleave3_in in H2 as [H2|[H2|H2]]; [apply (proj1 (rotate_right1_in _ _)) in H2|..]; apply in_map_iff in H2 as (q & <- & Hq); eauto.
Qed.

Lemma legible_written (c : contour PD) dbg f gps g : contour_ok L c -> into_glifpoints L dbg f c = Some (Ok gps) -> In g gps ->
  legible L (gx g) /\ legible L (gy g) /\ ptype_is_valid (gptype g) = true /\ (gptype g = OffCurve -> gsmooth g = false).
Proof.
  intros [(p0 & t & -> & Hp0 & Ht) Hl] H Hg. destruct (into_glifpoints_in dbg f _ gps g H Hg) as (p & Hp & [->|(w & ->)]).
  - cbn. split; [apply (Hl p); [assumption|cbn; auto]|]. split; [apply (Hl p); [assumption|cbn; auto]|].
    assert (pptype p = Move \/ pptype p = Line \/ pptype p = Curve) as Hty.
    { destruct Hp as [<-|Hp]; [tauto|]. rewrite Forall_forall in Ht. auto. }
    destruct Hty as [E|[E|E]]; rewrite E; split; (reflexivity || discriminate).
  - unfold gp_from_handle, handle_or_colocated, get_handle.
    assert (forall x y, In x (coordinates p) -> In y (coordinates p) ->
      legible L (gx (gp_from_x_y_type L x y OffCurve)) /\ legible L (gy (gp_from_x_y_type L x y OffCurve)) /\ true = true /\ (OffCurve = OffCurve -> false = false)) as X.
    { intros x y Hx Hy. cbn. repeat split; apply (Hl p); assumption. }
    unfold coordinates in X. destruct w; [apply X; cbn; auto| |].
    + destruct (pa p) as [x y|] eqn:Ea; apply X; cbn; auto.
    + destruct (pb p) as [x y|] eqn:Ea; apply X; destruct (pa p); cbn; auto 10.
Qed.

Context (HL : forall f, f32_of_iof (iof_of_f32 L f) = f).

Lemma contour_xml_restored dbg (c : contour PD) : contour_ok L c ->
  exists e gps' c', contour_xml L dbg c = Ok e /\ ename e = lit "contour" /\ mapM (read_point L) (named "point" e) = Ok gps' /\
    gps' <> [] /\ contour_of_glif L gps' = Ok c' /\ c' <> [] /\ contour_restored c c'.
Proof.
  intros Hok. pose proof Hok as [Hform _]. unfold contour_xml.
  replace (3 * length c + 3) with (S (3 * length c + 2)) by lia.
  destruct (write_read_cubic L HL dbg (3 * length c + 2) c Hform) as (gps & c' & H1 & H2 & H3).
  rewrite H1. destruct (contour_xml_listed dbg gps) as (e & gps' & E1 & E2 & E3 & E4).
  { intros g Hg. eapply legible_written; eassumption. }
  rewrite E1. exists e, gps', c'. split; [reflexivity|]. split; [assumption|]. split; [assumption|].
  assert (exists g t, gps = g :: t /\ (gptype g = Move \/ gptype g = Line \/ gptype g = Curve)) as (g & t & -> & Hg).
  { destruct gps as [|g t]; [discriminate H2|]. exists g, t. split; [reflexivity|].
    destruct (legible_written c dbg _ _ g Hok H1 (or_introl eq_refl)) as (_ & _ & Hv & _).
    destruct (into_glifpoints_in dbg _ _ _ g H1 (or_introl eq_refl)) as (p & Hp & [->|(w & ->)]).
    - cbn. destruct Hform as (p0 & t0 & -> & Hp0 & Ht0). destruct Hp as [<-|Hp]; [tauto|].
      rewrite Forall_forall in Ht0. auto.
    - exfalso. unfold gp_from_handle in H2. destruct (handle_or_colocated _ _ _ _) as [x y]. cbn in H2. injection H2 as <-.
      destruct Hform as (p0 & t0 & -> & Hp0 & Ht0). destruct (H3 p0 t0 eq_refl) as [A B].
      destruct Hp0 as [[X _]|[X|X]].
      + destruct A as [A _]; [congruence|]. discriminate A.
      + destruct A as [A _]; [congruence|]. discriminate A.
      + destruct B as (c1 & (z & m & F1 & ->) & B); [assumption|]. destruct B as [B _]. discriminate B. }
  rewrite (contour_of_glif_same (g :: t) gps' g t eq_refl Hg E4).
  split; [inversion E4; discriminate|]. split; [assumption|].
  assert (contour_restored c c') as HR.
  { split; intros p u Ec; destruct (H3 p u Ec) as [A B]; assumption. }
  split; [|assumption]. intros ->. destruct Hform as (p0 & t0 & -> & Hp0 & Ht0). destruct HR as [A B].
  destruct (ptype_eqb_spec (pptype p0) Curve) as [E|E].
  - destruct (B p0 t0 eq_refl E) as (c1 & (z & m & F1 & ->) & [B1 _]). discriminate B1.
  - destruct (A p0 t0 eq_refl E) as [A1 _]. discriminate A1.
Qed.

Lemma contours_restored dbg (cs : list (contour PD)) : Forall (contour_ok L) cs ->
  exists es gcs cs', mapM (contour_xml L dbg) cs = Ok es /\ Forall (fun e => ename e = lit "contour") es /\
    mapM (fun e => mapM (read_point L) (named "point" e)) es = Ok gcs /\ filter nonempty gcs = gcs /\
    outline_of_glif L gcs = Ok cs' /\ Forall2 contour_restored cs cs'.
Proof.
  induction 1 as [|c cs Hc _ IH].
  - exists [], [], []. repeat split; constructor.
  - destruct (contour_xml_restored dbg c Hc) as (e & gps & c' & A1 & A2 & A3 & A4 & A5 & A6 & A7).
    destruct IH as (es & gcs & cs' & B1 & B2 & B3 & B4 & B5 & B6).
    exists (e :: es), (gps :: gcs), (c' :: cs'). cbn [mapM]. rewrite A1. cbn [bind]. rewrite B1. cbn [bind].
    rewrite A3. cbn [bind]. rewrite B3. cbn [bind]. split; [reflexivity|]. split; [now constructor|]. split; [reflexivity|].
    split; [destruct gps; [congruence|]; cbn; now rewrite B4|]. split; [|now constructor].
    unfold outline_of_glif in *. cbn [mapM]. rewrite A5. cbn [bind].
    destruct (mapM (contour_of_glif L) gcs) as [k| |]; try discriminate. cbn [bind] in *. injection B5 as <-.
    destruct c'; [congruence|reflexivity].
Qed.

Lemma nelem_named n m es : Forall (fun e => ename e = lit m) es ->
  children_named (lit n) (map NElem es) = if str_eqb (lit m) (lit n) then es else [].
Proof.
  induction 1 as [|e es He _ IH]; [now destruct (str_eqb _ _)|]. cbn [map]. rewrite children_named_cons, He, IH.
  destruct (str_eqb _ _); reflexivity.
Qed.
Lemma images_named n imgs : Forall (image_ok L) imgs ->
  exists es imgs', flat_map (image_nodes L) imgs = map NElem es /\ Forall (fun e => ename e = lit "image") es /\
    mapM (read_image L) es = Ok imgs' /\ Forall2 image_restored imgs imgs' /\ Forall (fun i => i_color i = None) imgs' /\
    children_named (lit n) (map NElem es) = if str_eqb (lit "image") (lit n) then es else [].
Proof.
  intros H.
  assert (exists es imgs', flat_map (image_nodes L) imgs = map NElem es /\ Forall (fun e => ename e = lit "image") es /\
    mapM (read_image L) es = Ok imgs' /\ Forall2 image_restored imgs imgs' /\ Forall (fun i => i_color i = None) imgs') as (es & imgs' & A1 & A2 & A3 & A4 & A5).
  { induction H as [|i imgs Hi _ IH]; [exists [], []; repeat split; constructor|].
    destruct (image_xml_restored i Hi) as (e & i' & A1 & A2 & A3 & A4 & A5). destruct IH as (es & imgs' & B1 & B2 & B3 & B4 & B5).
    exists (e :: es), (i' :: imgs'). cbn [flat_map mapM]. unfold image_nodes at 1. rewrite A1, B1, A3. cbn [bind]. rewrite B3. cbn [bind].
    repeat split; try constructor; assumption. }
  exists es, imgs'. repeat split; try assumption. now apply nelem_named.
Qed.

Lemma lib_nodes_restored (l : lib PL) : lib_ok P l ->
  exists o, lib_nodes P l = match o with Some e => [NElem e] | None => [] end /\
    (forall e, o = Some e -> ename e = lit "lib") /\ lib_restored l (read_lib P o).
Proof.
  intros H. destruct l as [|d|e]; cbn in H; unfold lib_nodes.
  - exists None. repeat split. discriminate.
  - destruct H as (e & H1 & H2). rewrite H1. destruct e as [n a c]. cbn in H2. eexists (Some _). split; [reflexivity|].
    split; [intros e E; now injection E as <-|]. cbn. now rewrite H2.
  - destruct e as [n a c]. cbn in H. eexists (Some _). split; [reflexivity|]. split; [intros e E; now injection E as <-|].
    cbn. rewrite H. reflexivity.
Qed.

Lemma one_named n m (o : option element) : (forall e, o = Some e -> ename e = lit m) ->
  children_named (lit n) (match o with Some e => [NElem e] | None => [] end) =
  if str_eqb (lit m) (lit n) then match o with Some e => [e] | None => [] end else [].
Proof.
  intros H. destruct o as [e|]; [|now destruct (str_eqb _ _)]. rewrite children_named_cons, (H e eq_refl).
  destruct (str_eqb _ _); reflexivity.
Qed.

Ltac lits := repeat match goal with |- context [str_eqb (lit ?a) (lit ?b)] =>
    let v := eval vm_compute in (str_eqb (lit a) (lit b)) in change (str_eqb (lit a) (lit b)) with v end; cbv iota.

Theorem glyph_xml_restored dbg ped g : glyph_ok L P g -> ped_mend ped = MendAlways -> is_sfnt (ped_level ped) = false ->
  exists e g', glif_xml L P dbg g = Ok e /\ read_element L pd0 P ped e = Ok g' /\ glyph_restored g g' /\
    cs_root (g_components g') = g_name g /\ Forall (fun i => i_color i = None) (g_images g') /\
    (g_outline g' = None <-> contours g = [] /\ cs_vec (g_components g) = []).
Proof.
  intros (Hw & Hu & Ha & Hg & Hc & Hi & Hl & Ho) Hm Hs.
  destruct (contours_restored dbg (contours g) Ho) as (ces & gcs & cs' & C1 & C2 & C3 & C4 & C5 & C6).
  set (advo := option_map advance_xml (g_width g)).
  set (us := map codepoint_xml (g_unicode g)).
  set (ans := map (anchor_xml L) (g_anchors g)).
  set (kes := map (component_xml L) (cs_vec (g_components g))).
  set (gls := map (guideline_xml L) (g_guidelines g)).
  set (no := option_map (fun n => Element (lit "note") [] [NText n]) (g_note g)).
  destruct (images_named "image" (g_images g) Hi) as (ims & imgs' & I1 & I2 & I3 & I4 & I5 & _).
  destruct (lib_nodes_restored (g_lib g) Hl) as (lo & L1 & L2 & L3).
  set (oo := match ces ++ kes with [] => None | _ :: _ => Some (Element (lit "outline") [] (map NElem ces ++ map NElem kes)) end).
  set (ch := match advo with Some e => [NElem e] | None => [] end ++ map NElem us ++ map NElem ans ++
             match oo with Some e => [NElem e] | None => [] end ++ map NElem ims ++ map NElem gls ++
             match no with Some e => [NElem e] | None => [] end ++ match lo with Some e => [NElem e] | None => [] end).
  set (root := Element (lit "glyph") [(lit "name", g_name g); (lit "format", lit "2")] ch).
  assert (glif_xml L P dbg g = Ok root) as Ex.
  { unfold glif_xml. replace (outline_children L dbg (g_outline g)) with (Ok (map NElem ces)).
    2:{ unfold outline_children. unfold contours in C1. destruct (g_outline g); [now rewrite C1|]. cbn in C1. now injection C1 as <-. }
    cbn [bind]. unfold root, ch. rewrite L1, I1. f_equal. cbn [insert eattrs ename new_element]. f_equal.
    f_equal; [unfold advo; now destruct (g_width g)|]. f_equal; [unfold us; now rewrite map_map|]. f_equal; [unfold ans; now rewrite map_map|].
    f_equal; [|f_equal; f_equal; [unfold gls; now rewrite map_map|f_equal; unfold no; now destruct (g_note g)]].
    unfold oo, kes. rewrite map_map. destruct ces as [|e ces]; [|reflexivity]. cbn [map app].
    destruct (cs_vec (g_components g)); reflexivity. }
  assert (forall n m es, Forall (fun e => ename e = lit m) es -> children_named (lit n) (map NElem es) = if str_eqb (lit m) (lit n) then es else []) as NN
    by (intros; now apply nelem_named).
  assert (Forall (fun e => ename e = lit "unicode") us) as Fu.
  { apply Forall_forall. intros e He. apply in_map_iff in He as (c & <- & _). reflexivity. }
  assert (Forall (fun e => ename e = lit "anchor") ans) as Fa.
  { apply Forall_forall. intros e He. apply in_map_iff in He as (c & <- & _). unfold anchor_xml. rewrite ename_insert_opt, !ename_insert. reflexivity. }
  assert (Forall (fun e => ename e = lit "component") kes) as Fk.
  { apply Forall_forall. intros e He. apply in_map_iff in He as (c & <- & _). unfold component_xml, write_matrix. rewrite !ename_insert, ename_insert_opt, ename_insert. reflexivity. }
  assert (Forall (fun e => ename e = lit "guideline") gls) as Fg.
  { apply Forall_forall. intros e He. apply in_map_iff in He as (c & <- & _). unfold guideline_xml. rewrite !ename_insert_opt, !ename_insert. reflexivity. }
  assert (forall n, named n root =
     (if str_eqb (lit "advance") (lit n) then match advo with Some e => [e] | None => [] end else []) ++
     (if str_eqb (lit "unicode") (lit n) then us else []) ++
     (if str_eqb (lit "anchor") (lit n) then ans else []) ++
     (if str_eqb (lit "outline") (lit n) then match oo with Some e => [e] | None => [] end else []) ++
     (if str_eqb (lit "image") (lit n) then ims else []) ++
     (if str_eqb (lit "guideline") (lit n) then gls else []) ++
     (if str_eqb (lit "note") (lit n) then match no with Some e => [e] | None => [] end else []) ++
     (if str_eqb (lit "lib") (lit n) then match lo with Some e => [e] | None => [] end else [])) as Hn.
  { intros n. unfold named, root. cbn [echildren]. unfold ch. rewrite !children_named_app.
    rewrite (one_named n "advance" advo), (one_named n "outline" oo), (one_named n "note" no), (one_named n "lib" lo L2).
    - rewrite (NN n "unicode"%string us Fu), (NN n "anchor"%string ans Fa), (NN n "image"%string ims I2), (NN n "guideline"%string gls Fg). reflexivity.
    - unfold no. destruct (g_note g); cbn; intros e E; [now injection E as <-|discriminate].
    - unfold oo. destruct (ces ++ kes); intros e' E; [discriminate|now injection E as <-].
    - unfold advo. destruct (g_width g); cbn; intros e E; [now injection E as <-|discriminate]. }
  destruct (mapM_restore (read_anchor L pd0 ped) (anchor_xml L) anchor_restored (g_anchors g)) as (ans' & A1 & A2).
  { intros x Hx. rewrite Forall_forall in Ha. destruct (anchor_xml_restored ped x (Ha x Hx) Hm Hs) as (y & Y1 & Y2 & _). eauto. }
  destruct (mapM_restore (read_guideline L pd0) (guideline_xml L) guideline_restored (g_guidelines g)) as (gls' & G1 & G2).
  { intros x Hx. rewrite Forall_forall in Hg. destruct (guideline_xml_restored x (Hg x Hx)) as (y & Y1 & Y2 & _). eauto. }
  destruct (mapM_restore (read_component L) (component_xml L) component_restored (cs_vec (g_components g))) as (ks' & K1 & K2).
  { intros x Hx. rewrite Forall_forall in Hc. destruct (component_xml_restored x (Hc x Hx)) as (y & Y1 & Y2 & _). eauto. }
  assert (mapM read_unicode us = Ok (g_unicode g)) as U1.
  { destruct (mapM_restore read_unicode codepoint_xml eq (g_unicode g)) as (us' & U1 & U2).
    - intros x Hx. rewrite Forall_forall in Hu. exists x. split; [apply unicode_restored; auto|reflexivity].
    - unfold us. rewrite U1. f_equal. clear -U2. induction U2; congruence. }
  assert (outline_by_kind L (match oo with Some e => Some e | None => None end) = Ok (gcs, ks')) as OO.
  { unfold oo. destruct (ces ++ kes) as [|e0 l0] eqn:Eo.
    - apply app_eq_nil in Eo as [-> Ek]. cbn in C3. injection C3 as <-. unfold kes in Ek. apply map_eq_nil in Ek. rewrite Ek in K1. cbn in K1. injection K1 as <-. reflexivity.
    - clear Eo. cbn [outline_by_kind]. unfold named. cbn [echildren]. rewrite !children_named_app.
      rewrite (NN "contour"%string "contour"%string ces C2), (NN "contour"%string "component"%string kes Fk), (NN "component"%string "contour"%string ces C2), (NN "component"%string "component"%string kes Fk).
      lits. rewrite app_nil_r. cbn [app]. unfold named in C3. rewrite C3. cbn [bind]. unfold kes. rewrite K1. cbn [bind]. now rewrite C4. }
  exists root. eexists. split; [exact Ex|]. split.
  - rewrite read_element_by_kind. unfold read_by_kind. rewrite !Hn. lits. rewrite ?app_nil_r. cbn [app].
    change (str_eqb (ename root) (lit "glyph")) with true. change (get root "format") with (Some (lit "2")).
    change (get root "name") with (Some (g_name g)). cbn [negb ok_or bind]. change (str_eqb (lit "2") (lit "2")) with true. cbn [negb].
    replace (match hd_error (match advo with Some e => [e] | None => [] end) with Some a => let* w := read_advance L ped a in Ok (Some w) | None => Ok None end)
      with (Ok (g_width g) : res (option N)).
    2:{ unfold advo. destruct (g_width g) as [w|]; [|reflexivity]. cbn [option_map hd_error]. now rewrite advance_restored by auto. }
    cbn [bind]. rewrite U1. cbn [bind]. unfold ans. rewrite A1. cbn [bind]. rewrite I3. cbn [bind]. unfold gls. rewrite G1. cbn [bind].
    replace (hd_error (match oo with Some e => [e] | None => [] end)) with oo by now destruct oo.
    replace (match oo with Some e => Some e | None => None end) with oo in OO by now destruct oo.
    rewrite OO. cbn [bind fst snd]. rewrite C5. cbn [bind].
    replace (hd_error (match lo with Some e => [e] | None => [] end)) with lo by now destruct lo.
    reflexivity.
  - split; [|split; [reflexivity|split; [exact I5|]]].
    + unfold glyph_restored. cbn [g_name g_width g_unicode g_anchors g_guidelines g_components cs_vec g_images g_note g_lib].
      repeat (split; [first [reflexivity|assumption]|]).
      split; [unfold no; destruct (g_note g) as [nt|]; [cbn; now rewrite app_nil_r|reflexivity]|]. split; [assumption|].
      unfold contours at 2. cbn [g_outline]. destruct cs' as [|c' cs']; [|exact C6]. destruct ks'; exact C6.
    + cbn [g_outline]. destruct cs' as [|c' cs'], ks' as [|k' ks']; cbn [nonempty orb].
      * split; [|reflexivity]. intros _. inversion C6. inversion K2. now split.
      * split; [discriminate|]. intros [_ E]. rewrite E in K2. inversion K2.
      * split; [discriminate|]. intros [E _]. rewrite E in C6. inversion C6.
      * split; [discriminate|]. intros [E _]. rewrite E in C6. inversion C6.
Qed.

End Restore.

(** Widths and rounding. *)
Local Open Scope Z_scope.
Lemma integer_part_unique m e j k : integer_part m e j -> integer_part m e k -> j = k.
Proof.
  unfold integer_part. intros [A1 A2] [B1 B2].
  assert (0 < 2 ^ Z.max 0 (- e)) by (apply Z.pow_pos_nonneg; lia). nia.
Qed.
Lemma trunc_integer_part m e : integer_part m e (trunc_Z (S754_finite false m e)).
Proof.
  unfold integer_part, trunc_Z. cbn [cond_Zopp]. destruct (Z.leb_spec 0 e) as [H|H].
  - rewrite (Z.max_l 0 (- e)) by lia. rewrite (Z.max_r 0 e) by lia. change (2 ^ 0) with 1. lia.
  - rewrite (Z.max_r 0 (- e)) by lia. rewrite (Z.max_l 0 e) by lia. change (2 ^ 0) with 1.
    assert (0 < 2 ^ (- e)) as Hp by (apply Z.pow_pos_nonneg; lia).
    pose proof (Z.div_mod (Zpos m) (2 ^ (- e))). pose proof (Z.mod_pos_bound (Zpos m) (2 ^ (- e)) Hp). nia.
Qed.
Lemma cut_to_u64_ok f : cut_to_u64 f (f32_as_u64 f).
Proof.
  unfold cut_to_u64, f32_as_u64. destruct f as [s|s| |s m e]; try reflexivity.
  - destruct s; reflexivity.
  - destruct s.
    + cbn [sat_cast]. unfold clampZ. assert (trunc_Z (S754_finite true m e) <= 0) as H; [|lia].
      unfold trunc_Z. cbn [cond_Zopp]. destruct (0 <=? e) eqn:E.
      * assert (0 < 2 ^ e) by (apply Z.pow_pos_nonneg; lia). nia.
      * assert (0 <= Zpos m / 2 ^ (- e)); [|lia]. apply Z.div_pos; [lia|]. apply Z.pow_pos_nonneg; lia.
    + exists (trunc_Z (S754_finite false m e)). split; [apply trunc_integer_part|]. cbn [sat_cast]. unfold clampZ.
      assert (0 <= trunc_Z (S754_finite false m e)) as H.
      { pose proof (trunc_integer_part m e) as [A B]. assert (0 < 2 ^ Z.max 0 (- e)) by (apply Z.pow_pos_nonneg; lia).
        assert (0 < 2 ^ Z.max 0 e) by (apply Z.pow_pos_nonneg; lia). nia. }
      change (2 ^ 64 - 1) with 18446744073709551615. lia.
Qed.
Lemma rounded_ok f : rounded f (round32 f).
Proof.
  unfold rounded, round32. destruct f as [s|s| |s m e]; try reflexivity. destruct (Z.leb_spec 0 e) as [H|H]; [reflexivity|].
  assert (0 < 2 ^ (- e)) as Hp by (apply Z.pow_pos_nonneg; lia).
  pose proof (Z.div_mod (Zpos m) (2 ^ (- e)) ltac:(lia)) as E. pose proof (Z.mod_pos_bound (Zpos m) (2 ^ (- e)) Hp) as B.
  assert (0 <= Zpos m / 2 ^ (- e)) as Q by (apply Z.div_pos; lia).
  set (q := Zpos m / 2 ^ (- e)) in *. set (r := Zpos m mod 2 ^ (- e)) in *. set (d := 2 ^ (- e)) in *.
  assert (forall n, binary_normalize prec32 emax32 (cond_Zopp s n) 0 s = if n =? 0 then S754_zero s else f32_of_Z (if s then - n else n)) as N.
  { intros n. destruct (Z.eqb_spec n 0) as [->|Hn]; [destruct s; reflexivity|]. unfold f32_of_Z. destruct s; cbn [cond_Zopp].
    - destruct (- n) eqn:En; [lia|reflexivity|reflexivity].
    - destruct n; [lia|reflexivity|reflexivity]. }
  destruct (Z.leb_spec d (2 * r)); [exists (q + 1)|exists q]; (split; [nia|apply N]).
Qed.
Local Close Scope Z_scope.

(** Where reading can panic. *)
Section Panics.
Context (L : numlib) {PD PL : Type} (pd0 : PD) (P : plistlib PL).
Lemma ok_or_no_panic {A} (o : option A) e : ok_or o e <> Panic.
Proof. destruct o; discriminate. Qed.
Lemma bind_no_panic {A B} (r : res A) (k : A -> res B) : r <> Panic -> (forall a, r = Ok a -> k a <> Panic) -> bind r k <> Panic.
Proof. destruct r; cbn; intros H1 H2; [apply H2; reflexivity|discriminate|congruence]. Qed.
Lemma mapM_no_panic {A B} (f : A -> res B) l : (forall x, f x <> Panic) -> mapM f l <> Panic.
Proof.
  intros H. induction l as [|x l IH]; cbn [mapM]; [discriminate|]. apply bind_no_panic; [apply H|]. intros y _.
  apply bind_no_panic; [assumption|]. intros; discriminate.
Qed.
Ltac np := repeat first [match goal with |- bind _ _ <> Panic => apply bind_no_panic; [|intros] end|apply ok_or_no_panic|discriminate].
Lemma read_advance_np ped a : read_advance L ped a <> Panic.
Proof. unfold read_advance. np. destruct (parse_u64 _); [discriminate|]. destruct (f32_read L _); [|discriminate]. destruct (is_subnormal _); [discriminate|]. destruct (negb _); discriminate. Qed.
Lemma read_unicode_np u : read_unicode u <> Panic.
Proof. unfold read_unicode. np. Qed.
Lemma read_anchor_np ped a : read_anchor L pd0 ped a <> Panic.
Proof. unfold read_anchor. np. unfold anchor_from_glif. destruct (_ && _); discriminate. Qed.
Lemma read_color_np e : read_color L e <> Panic.
Proof. unfold read_color. destruct (get e "color"); np. apply color_parse_no_panic. Qed.
Lemma load_matrix_np e m : load_matrix L e m <> Panic.
Proof. unfold load_matrix, load_member. np; match goal with |- match ?o with Some _ => _ | None => _ end <> Panic => destruct o; np end. Qed.
Lemma read_image_np e : read_image L e <> Panic.
Proof. unfold read_image. np; [apply load_matrix_np|apply read_color_np]. Qed.
Lemma read_guideline_np e : read_guideline L pd0 e <> Panic.
Proof. unfold read_guideline. np. apply read_color_np. Qed.
Lemma read_point_np e : read_point L e <> Panic.
Proof. unfold read_point. np. destruct (ptype_is_valid _); discriminate. Qed.
Lemma read_component_np e : read_component L e <> Panic.
Proof. unfold read_component. np. apply load_matrix_np. Qed.

Lemma filter_nonempty_in {A} (l : list (list A)) x : In x (filter nonempty l) <-> In x l /\ x <> [].
Proof. rewrite filter_In. unfold nonempty. destruct x; intuition congruence. Qed.

Lemma read_panic_contour ped root : read_element L pd0 P ped root = Panic ->
  exists o ce gps, hd_error (named "outline" root) = Some o /\ In ce (named "contour" o) /\
    mapM (read_point L) (named "point" ce) = Ok gps /\ gps <> [] /\ unreadable gps.
Proof.
  rewrite read_element_by_kind. unfold read_by_kind.
  destruct (str_eqb (ename root) (lit "glyph")); cbn [negb]; [|discriminate].
  destruct (get root "format") as [fm|]; cbn [ok_or bind]; [|discriminate].
  destruct (str_eqb fm (lit "2")); cbn [negb]; [|discriminate].
  destruct (get root "name") as [nm|]; cbn [ok_or bind]; [|discriminate].
  destruct (match hd_error (named "advance" root) with Some a => _ | None => _ end) as [w| |] eqn:E; cbn [bind]; [|discriminate|].
  2:{ destruct (hd_error (named "advance" root)); [|discriminate]. pose proof (read_advance_np ped e). destruct (read_advance L ped e); [discriminate|discriminate|congruence]. }
  clear E.
  destruct (mapM read_unicode (named "unicode" root)) as [us| |] eqn:E; cbn [bind]; [|discriminate|].
  2:{ now apply mapM_no_panic in E; [|apply read_unicode_np]. } clear E.
  destruct (mapM (read_anchor L pd0 ped) (named "anchor" root)) as [an| |] eqn:E; cbn [bind]; [|discriminate|].
  2:{ now apply mapM_no_panic in E; [|apply read_anchor_np]. } clear E.
  destruct (mapM (read_image L) (named "image" root)) as [im| |] eqn:E; cbn [bind]; [|discriminate|].
  2:{ now apply mapM_no_panic in E; [|apply read_image_np]. } clear E.
  destruct (mapM (read_guideline L pd0) (named "guideline" root)) as [gl| |] eqn:E; cbn [bind]; [|discriminate|].
  2:{ now apply mapM_no_panic in E; [|apply read_guideline_np]. } clear E.
  destruct (outline_by_kind L (hd_error (named "outline" root))) as [[gcs ks]| |] eqn:E; cbn [bind fst snd]; [|discriminate|].
  - destruct (outline_of_glif L gcs) as [o| |] eqn:Eo; cbn [bind]; [discriminate|discriminate|]. intros _.
    apply (proj1 (proj1 (outline_panic (PD:=PD) L gcs))) in Eo as (gps & Hin & Hu).
    destruct (hd_error (named "outline" root)) as [oe|]; [|injection E as <- <-; destruct Hin].
    cbn [outline_by_kind] in E. destruct (mapM _ (named "contour" oe)) as [all| |] eqn:Ea; try discriminate. cbn [bind] in E.
    destruct (mapM (read_component L) _); try discriminate. cbn [bind] in E. injection E as <- <-.
    apply filter_nonempty_in in Hin as [Hin Hne]. apply mapM_ok in Ea.
    assert (exists ce, In ce (named "contour" oe) /\ mapM (read_point L) (named "point" ce) = Ok gps) as (ce & H1 & H2).
    { clear -Ea Hin. induction Ea as [|x y l l' Hxy _ IH]; [destruct Hin|]. destruct Hin as [->|Hin].
      - exists x. split; [now left|assumption].
      - destruct (IH Hin) as (ce & A & B). exists ce. split; [now right|assumption]. }
    exists oe, ce, gps. auto.
  - exfalso. destruct (hd_error (named "outline" root)) as [oe|]; [|discriminate]. cbn [outline_by_kind] in E.
    destruct (mapM _ (named "contour" oe)) as [all| |] eqn:Ea; cbn [bind] in E; [|discriminate|].
    + destruct (mapM (read_component L) _) eqn:Ek; try discriminate. now apply mapM_no_panic in Ek; [|apply read_component_np].
    + apply mapM_no_panic in Ea; [assumption|]. intros x. apply mapM_no_panic, read_point_np.
Qed.

Lemma read_ok_readable ped root g o ce gps : read_element L pd0 P ped root = Ok g ->
  hd_error (named "outline" root) = Some o -> In ce (named "contour" o) ->
  mapM (read_point L) (named "point" ce) = Ok gps -> gps <> [] -> ~ unreadable gps.
Proof.
  intros H Ho Hi Hm Hne Hu. revert H. rewrite read_element_by_kind. unfold read_by_kind.
  destruct (str_eqb (ename root) (lit "glyph")); cbn [negb]; [|discriminate].
  destruct (get root "format") as [fm|]; cbn [ok_or bind]; [|discriminate].
  destruct (str_eqb fm (lit "2")); cbn [negb]; [|discriminate].
  destruct (get root "name") as [nm|]; cbn [ok_or bind]; [|discriminate].
  destruct (match hd_error (named "advance" root) with Some a => _ | None => _ end) as [w| |]; cbn [bind]; try discriminate.
  destruct (mapM read_unicode (named "unicode" root)) as [us| |]; cbn [bind]; try discriminate.
  destruct (mapM (read_anchor L pd0 ped) (named "anchor" root)) as [an| |]; cbn [bind]; try discriminate.
  destruct (mapM (read_image L) (named "image" root)) as [im| |]; cbn [bind]; try discriminate.
  destruct (mapM (read_guideline L pd0) (named "guideline" root)) as [gl| |]; cbn [bind]; try discriminate.
  rewrite Ho. cbn [outline_by_kind].
  destruct (mapM _ (named "contour" o)) as [all| |] eqn:Ea; cbn [bind]; try discriminate.
  destruct (mapM (read_component L) _) as [ks| |]; cbn [bind fst snd]; try discriminate.
  assert (outline_of_glif (PD := PD) L (filter nonempty all) = Panic) as ->; [|discriminate].
  apply (proj1 (outline_panic (PD := PD) L _)). exists gps. split; [|exact Hu]. apply filter_nonempty_in. split; [|exact Hne].
  apply mapM_ok in Ea. clear -Ea Hi Hm. induction Ea as [|x y l l' Hxy _ IH]; [destruct Hi|]. destruct Hi as [->|Hi]; [left; congruence|right; auto].
Qed.

(** No lib is written for a glyph without one. *)
Lemma none_named n c : (forall e, In (NElem e) c -> ename e <> n) -> children_named n c = [].
Proof.
  induction c as [|x c IH]; intros H; [reflexivity|]. rewrite children_named_cons. rewrite IH by (intros e He; apply H; now right).
  destruct x as [e| | |]; try reflexivity. destruct (str_eqb_spec (ename e) n) as [E|]; [|reflexivity].
  exfalso. apply (H e); [now left|assumption].
Qed.
Lemma no_lib_written dbg (g : glif PD PL) e : glif_xml L P dbg g = Ok e -> g_lib g = LNone -> named "lib" e = [].
Proof.
  unfold glif_xml. destruct (outline_children L dbg (g_outline g)) as [oc| |]; cbn [bind]; try discriminate. intros H E. injection H as <-.
  rewrite E. unfold lib_nodes. rewrite app_nil_r. unfold named. cbn [echildren].
  apply none_named. intros e He. rewrite !in_app_iff in He.
  destruct He as [He|[He|[He|[He|[He|[He|He]]]]]].
  - destruct (g_width g); [|destruct He]. destruct He as [He|[]]. injection He as <-. discriminate.
  - apply in_map_iff in He as (x & He & _). injection He as <-. discriminate.
  - apply in_map_iff in He as (x & He & _). apply (f_equal (fun n => match n with NElem x => ename x | _ => [] end)) in He; cbv beta iota in He; rewrite <- He. clear He. unfold anchor_xml. rewrite ename_insert_opt, !ename_insert. discriminate.
  - destruct (oc ++ _); [destruct He|]. destruct He as [He|[]]. injection He as <-. discriminate.
  - apply in_flat_map in He as (i & _ & He). unfold image_nodes, image_try_xml in He. destruct (i_filename i); [|destruct He].
    destruct He as [He|[]]. apply (f_equal (fun n => match n with NElem x => ename x | _ => [] end)) in He; cbv beta iota in He; rewrite <- He. clear He. unfold write_matrix. rewrite !ename_insert, ename_insert_opt, ename_insert. discriminate.
  - apply in_map_iff in He as (x & He & _). apply (f_equal (fun n => match n with NElem x => ename x | _ => [] end)) in He; cbv beta iota in He; rewrite <- He. clear He. unfold guideline_xml. rewrite !ename_insert_opt, !ename_insert. discriminate.
  - destruct (g_note g); [|destruct He]. destruct He as [He|[]]. injection He as <-. discriminate.
Qed.
End Panics.
