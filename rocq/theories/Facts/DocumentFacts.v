(** Reading of elements against what they say. *)
Require Import Coq.Strings.String Coq.Lists.List Coq.NArith.NArith Coq.ZArith.ZArith Coq.Bool.Bool Coq.Floats.SpecFloat Coq.micromega.Lia.
Require Import Verif.Model.Base Verif.Model.Text Verif.Model.Float Verif.Model.Num Verif.Model.Point Verif.Model.Contour
  Verif.Model.Create Verif.Model.Strings Verif.Model.Names Verif.Model.Pedantry Verif.Model.Color Verif.Model.Xml Verif.Model.Parts
  Verif.Model.Read
  Verif.Spec.TextSpec Verif.Spec.GlyphSpec Verif.Spec.DocumentSpec
  Verif.Facts.NamesFacts Verif.Facts.StringsFacts Verif.Facts.TextFacts Verif.Facts.ColorFacts
  Verif.Facts.CreateFacts Verif.Facts.XmlFacts Verif.Facts.GlyphFacts.
Import ListNotations.
Local Open Scope nat_scope.

Lemma str_eqb_spec' s t : reflect (s = t) (str_eqb s t).
Proof. apply iff_reflect. symmetry. apply str_eqb_eq. Qed.

Lemma ptype_of_str_named s t : type_named (Some s) t <-> ptype_of_str s = t.
Proof.
  unfold ptype_of_str. split.
  - intros H. inversion H as [| | | |o Ho]; subst; try reflexivity.
    destruct (str_eqb_spec' s (lit "move")) as [->|]; [exfalso; apply (Ho "move"%string); cbn; auto|].
    destruct (str_eqb_spec' s (lit "line")) as [->|]; [exfalso; apply (Ho "line"%string); cbn; auto|].
    destruct (str_eqb_spec' s (lit "qcurve")) as [->|]; [exfalso; apply (Ho "qcurve"%string); cbn; auto|].
    destruct (str_eqb_spec' s (lit "curve")) as [->|]; [exfalso; apply (Ho "curve"%string); cbn; auto 6|]. reflexivity.
  - intros <-.
    destruct (str_eqb_spec' s (lit "move")) as [->|N1]; [constructor|].
    destruct (str_eqb_spec' s (lit "line")) as [->|N2]; [constructor|].
    destruct (str_eqb_spec' s (lit "qcurve")) as [->|N3]; [constructor|].
    destruct (str_eqb_spec' s (lit "curve")) as [->|N4]; [constructor|].
    constructor. intros n Hn [= E]. cbn in Hn. destruct Hn as [<-|[<-|[<-|[<-|[]]]]]; auto.
Qed.
Lemma type_named_read o t : type_named o t <-> ptype_of_str (match o with Some s => s | None => lit "offcurve" end) = t.
Proof.
  destruct o as [s|]; [apply ptype_of_str_named|]. change (ptype_of_str (lit "offcurve")) with OffCurve. split.
  - intros H. now inversion H.
  - intros <-. constructor. intros; discriminate.
Qed.
Lemma ptype_of_str_valid s : ptype_is_valid (ptype_of_str s) = true.
Proof. unfold ptype_of_str. repeat match goal with |- context [if ?b then _ else _] => destruct b end; reflexivity. Qed.

Section Read.
Context (L : numlib) {PD PL : Type} (pd0 : PD) (P : plistlib PL).

Lemma read_point_says e g : read_point L e = Ok g <-> point_says L e g.
Proof.
  unfold read_point, point_says, number_at. rewrite type_named_read.
  destruct (get e "x") as [sx|]; cbn [ok_or bind].
  2:{ split; [discriminate|]. intros ((s & H & _) & _). discriminate. }
  destruct (iof_read L sx) as [x|] eqn:Ex; cbn [ok_or bind].
  2:{ split; [discriminate|]. intros ((s & [= <-] & H) & _). congruence. }
  destruct (get e "y") as [sy|]; cbn [ok_or bind].
  2:{ split; [discriminate|]. intros (_ & (s & H & _) & _). discriminate. }
  destruct (iof_read L sy) as [y|] eqn:Ey; cbn [ok_or bind].
  2:{ split; [discriminate|]. intros (_ & (s & [= <-] & H) & _). congruence. }
  set (t := ptype_of_str _). assert (ptype_is_valid t = true) as -> by apply ptype_of_str_valid. clearbody t.
  set (sm := match get e "smooth" with Some s => _ | None => false end).
  assert (sm = true <-> get e "smooth" = Some (lit "yes") /\ t <> OffCurve) as Hs.
  { subst sm. destruct (get e "smooth") as [s|].
    - rewrite andb_true_iff, negb_true_iff. split.
      + intros [H1 H2]. apply str_eqb_eq in H1. subst s. split; [reflexivity|]. intros ->. discriminate.
      + intros [[= ->] H]. split; [now apply str_eqb_eq|]. destruct t; cbn; congruence.
    - split; [discriminate|]. intros [H _]. discriminate. }
  clearbody sm. split.
  - intros [= <-]. cbn. repeat split; eauto; apply Hs; auto.
  - destruct g as [gx' gy' gs gn gt]. cbn [gx gy gsmooth gname gptype].
    intros ((s & [= <-] & Hx) & (s' & [= <-] & Hy) & -> & -> & Hm). rewrite Hx in Ex. rewrite Hy in Ey. injection Ex as ->. injection Ey as ->.
    f_equal. f_equal. destruct sm, gs; try reflexivity; exfalso.
    + assert (false = true) by (apply Hm, Hs; reflexivity). discriminate.
    + assert (false = true) by (apply Hs, Hm; reflexivity). discriminate.
Qed.

Lemma load_member_says e k msg d i : load_member L e k msg d = Ok i <-> number_or L d e k i.
Proof.
  unfold load_member, number_or, number_at. destruct (get e k) as [s|].
  - destruct (iof_read L s) as [j|] eqn:E; cbn [ok_or].
    + split; [intros [= <-]; right; eauto|]. intros [[H _]|(s' & [= <-] & H)]; congruence.
    + split; [discriminate|]. intros [[H _]|(s' & [= <-] & H)]; congruence.
  - split; [intros [= <-]; auto|]. intros [[_ ->]|(s & H & _)]; [reflexivity|discriminate].
Qed.
Lemma bind_ok {A B} (r : res A) (k : A -> res B) b : bind r k = Ok b <-> exists a, r = Ok a /\ k a = Ok b.
Proof.
  destruct r as [a| |]; cbn [bind].
  - split; [eauto|]. intros (a' & [= <-] & H). exact H.
  - split; [discriminate|]. intros (a & H & _). discriminate.
  - split; [discriminate|]. intros (a & H & _). discriminate.
Qed.
Lemma load_matrix_says e m0 one zero m :
  m0 = mkMatrix one zero zero one zero zero ->
  load_matrix L e m0 = Ok m <-> matrix_says L one zero e m.
Proof.
  intros ->. unfold load_matrix, matrix_says. cbn [m_xScale m_xyScale m_yxScale m_yScale m_xOffset m_yOffset].
  rewrite <- !(load_member_says e "xScale" "Matrix member xScale not float"), <- !(load_member_says e "xyScale" "Matrix member xyScale not float"),
    <- !(load_member_says e "yxScale" "Matrix member yxScale not float"), <- !(load_member_says e "yScale" "Matrix member yScale not float"),
    <- !(load_member_says e "xOffset" "Matrix member xOffset not float"), <- !(load_member_says e "yOffset" "Matrix member yOffset not float").
  split.
  - intros H. apply bind_ok in H as (a & H1 & H). apply bind_ok in H as (b & H2 & H). apply bind_ok in H as (c & H3 & H).
    apply bind_ok in H as (d & H4 & H). apply bind_ok in H as (x & H5 & H). apply bind_ok in H as (y & H6 & H). injection H as <-. cbn. auto 8.
  - destruct m as [a b c d x y]. cbn. intros (-> & -> & -> & -> & -> & ->). reflexivity.
Qed.
Lemma read_component_says e c : read_component L e = Ok c <-> component_says L e c.
Proof.
  unfold read_component, component_says. cbn [c_matrix component_new]. rewrite bind_ok. split.
  - intros (m & H & H0). apply load_matrix_says with (one := IFloat (f32_of_Z 1)) (zero := iof_default L) in H; [|reflexivity].
    apply bind_ok in H0 as (b & H1 & H2). injection H2 as <-. destruct (get e "base"); [|discriminate]. injection H1 as ->. cbn. auto.
  - destruct c as [b fn m i]. cbn [c_base c_matrix c_identifier c_filename]. intros (H1 & H2 & -> & ->). exists m.
    split; [now apply (load_matrix_says e _ (IFloat (f32_of_Z 1)) (iof_default L))|]. rewrite H1. reflexivity.
Qed.

Lemma color_text_parse s c : color_parse L s = Ok c <-> color_text L s c.
Proof. destruct c as [r g b a]. unfold color_text. cbn [cr cg cb ca]. apply color_parse_exact. Qed.
Lemma read_color_says e o : read_color L e = Ok o <-> color_says L e o.
Proof.
  unfold read_color, color_says. destruct (get e "color") as [s|].
  - rewrite bind_ok. split.
    + intros (c & H & [= <-]). exists s. split; [reflexivity|]. now apply color_text_parse.
    + destruct o as [c|]; [|discriminate]. intros (s' & [= <-] & H). exists c. split; [now apply color_text_parse|reflexivity].
  - destruct o as [c|]; split; try discriminate; try reflexivity. intros (s & H & _). discriminate.
Qed.
Lemma read_image_says e i : read_image L e = Ok i <-> image_says L e i.
Proof.
  unfold read_image, image_says. rewrite bind_ok. split.
  - intros (fn & H1 & H). cbn [image_from_filename i_matrix i_filename] in H. apply bind_ok in H as (m & H2 & H). apply bind_ok in H as (c & H3 & H). injection H as <-.
    destruct (get e "fileName") as [s|]; [|discriminate]. injection H1 as ->.
    apply load_matrix_says with (one := IInt 1) (zero := IInt 0) in H2; [|reflexivity]. apply read_color_says in H3. cbn. eauto 8.
  - destruct i as [fn m id c]. cbn [i_filename i_matrix i_identifier i_color]. intros ((s & H1 & ->) & H2 & -> & H3). exists s. split; [now rewrite H1|].
    cbn [image_from_filename i_matrix i_filename]. apply bind_ok. exists m. split; [now apply (load_matrix_says e _ (IInt 1) (IInt 0))|].
    apply bind_ok. exists c. split; [now apply read_color_says|reflexivity].
Qed.

Lemma ok_or_ok {A} (o : option A) e a : ok_or o e = Ok a <-> o = Some a.
Proof. destruct o; cbn; split; congruence. Qed.
Lemma read_guideline_says e (g : guideline PD) : read_guideline L pd0 e = Ok g <-> guideline_says L pd0 e g.
Proof.
  unfold read_guideline, guideline_says, float_at, number_at. split.
  - intros H. apply bind_ok in H as (s1 & H1 & H). apply bind_ok in H as (x & H2 & H). apply bind_ok in H as (s2 & H3 & H). apply bind_ok in H as (y & H4 & H).
    apply bind_ok in H as (s3 & H5 & H). apply bind_ok in H as (an & H6 & H). apply bind_ok in H as (c & H7 & H). injection H as <-.
    apply ok_or_ok in H1, H2, H3, H4, H5, H6. apply read_color_says in H7. cbn. split; [eauto|]. split; [eauto|]. split; [eauto|]. auto.
  - destruct g as [x y an n c i d]. cbn [gl_x gl_y gl_angle gl_name gl_color gl_identifier gl_data].
    intros ((s1 & H1 & H2) & (s2 & H3 & H4) & (s3 & H5 & H6) & -> & H7 & -> & ->).
    rewrite H1. cbn [ok_or bind]. rewrite H2. cbn [ok_or bind]. rewrite H3. cbn [ok_or bind]. rewrite H4. cbn [ok_or bind].
    rewrite H5. cbn [ok_or bind]. rewrite H6. cbn [ok_or bind]. apply read_color_says in H7. rewrite H7. reflexivity.
Qed.

Lemma rounded_unique f r r' : rounded f r -> rounded f r' -> r = r'.
Proof.
  unfold rounded. destruct f as [s|s| |s m e]; try congruence. destruct (0 <=? e)%Z eqn:E; [congruence|].
  intros (n & (H1 & H2) & ->) (n' & (H1' & H2') & ->). assert (n = n') as ->; [|reflexivity].
  assert (0 < 2 ^ (- e))%Z by (apply Z.pow_pos_nonneg; apply Z.leb_gt in E; lia). nia.
Qed.
Lemma sfnt_is ped : sfnt ped <-> is_sfnt (ped_level ped) = true.
Proof. unfold sfnt. destruct (ped_level ped); cbn; split; intros H; try discriminate; auto; destruct H; discriminate. Qed.
Lemma anchor_coordinate_read ped i f : anchor_coordinate ped i f <-> f = maybe_round (ped_level ped) i FCAnchor.
Proof.
  unfold anchor_coordinate, maybe_round. rewrite sfnt_is. cbn [should_round]. destruct (is_sfnt (ped_level ped)); cbn [andb].
  - split.
    + intros [H _]. eapply rounded_unique; [now apply H|apply rounded_ok].
    + intros ->. split; [intros _; apply rounded_ok|congruence].
  - split; [intros [_ H]; apply H; discriminate|]. intros ->. split; [discriminate|reflexivity].
Qed.

(** The class and the kind of an anchor are determined by the name attribute. *)
Definition class_of (o : option str) : option str :=
  match o with Some n => match glif_string_len_one n with Ok s => Some s | _ => None end | None => None end.
Lemma class_of_spec o s : class_of o = Some s <-> o = Some s /\ usable_class s.
Proof.
  unfold class_of, usable_class. destruct o as [n|]; [|split; [discriminate|intros [H _]; discriminate]].
  destruct (glif_string_len_one n) as [m| |] eqn:E.
  - apply glif_string_len_one_exact in E as (-> & H1 & H2). split; [intros [= <-]; auto|intros [H _]; assumption].
  - split; [discriminate|]. intros [[= ->] [H1 H2]]. rewrite glif_string_len_one_ok in E by assumption. discriminate.
  - split; [discriminate|]. intros [[= ->] [H1 H2]]. rewrite glif_string_len_one_ok in E by assumption. discriminate.
Qed.
Lemma anchor_type_of_spec o : anchor_type_of o = AMark <-> exists t, o = Some (95%N :: t).
Proof.
  unfold anchor_type_of. destruct o as [[|c t]|].
  - split; [discriminate|]. intros (t & H). discriminate.
  - destruct (N.eqb_spec c 95) as [->|Hc]; [split; eauto|].
    assert (match c with 95%N => AMark | _ => ABase end = ABase) as X.
    { destruct c as [|p]; [reflexivity|]. repeat (destruct p as [p|p|]; try reflexivity). congruence. }
    split; [|intros (t' & H); congruence]. intros H. rewrite X in H. discriminate.
  - split; [discriminate|]. intros (t & H). discriminate.
Qed.
Lemma read_anchor_says ped e (a : anchor PD) : read_anchor L pd0 ped e = Ok a <-> anchor_says L pd0 ped e a.
Proof.
  unfold read_anchor. fold (class_of (get e "name")). split.
  - intros H. apply bind_ok in H as (s1 & H1 & H). apply bind_ok in H as (x & H2 & H). apply bind_ok in H as (s2 & H3 & H). apply bind_ok in H as (y & H4 & H).
    apply ok_or_ok in H1, H2, H3, H4. unfold anchor_from_glif in H. cbn [ga_x ga_y ga_class] in H.
    destruct (_ && _) eqn:B; [discriminate|]. injection H as <-. unfold anchor_says. cbn [an_x an_y an_class an_type an_data].
    split; [|split; [intros; apply class_of_spec|split; [apply anchor_type_of_spec|reflexivity]]].
    exists x, y. split; [exists s1; auto|]. split; [exists s2; auto|]. split; [now apply anchor_coordinate_read|]. split; [now apply anchor_coordinate_read|].
    intros Hm. destruct (ped_mend ped); [congruence| | |]; cbn [negb andb] in B; apply orb_false_iff in B as [B1 B2];
      destruct x, y; try discriminate; eauto.
  - destruct a as [ax ay ac ad at']. unfold anchor_says. cbn [an_x an_y an_class an_type an_data].
    intros ((x & y & (s1 & H1 & H2) & (s2 & H3 & H4) & Hx & Hy & Hm) & Hc & Ht & ->).
    rewrite H1. cbn [ok_or bind]. rewrite H2. cbn [ok_or bind]. rewrite H3. cbn [ok_or bind]. rewrite H4. cbn [ok_or bind].
    assert (class_of (get e "name") = ac) as ->.
    { destruct (class_of (get e "name")) as [s|] eqn:E.
      - symmetry. apply Hc, class_of_spec, E.
      - destruct ac as [s|]; [|reflexivity]. assert (Some s = Some s) as X by reflexivity. apply Hc, class_of_spec in X. congruence. }
    unfold anchor_from_glif. cbn [ga_x ga_y ga_class]. apply anchor_coordinate_read in Hx, Hy. subst ax ay.
    assert (anchor_type_of ac = at') as ->.
    { destruct (anchor_type_of ac) eqn:E, at'; try reflexivity.
      - apply anchor_type_of_spec in E. apply Ht in E. discriminate.
      - assert (AMark = AMark) as X by reflexivity. apply Ht, anchor_type_of_spec in X. congruence. }
    destruct (ped_mend ped); cbn [negb andb]; try reflexivity; destruct Hm as [(zx & ->) (zy & ->)]; try discriminate; reflexivity.
Qed.

Lemma cut_unique f w w' : cut_to_u64 f w -> cut_to_u64 f w' -> w = w'.
Proof.
  unfold cut_to_u64. destruct f as [s|[|]| |[|] m e]; intros H H'; try congruence; try lia.
  destruct H as (k & K1 & K2), H' as (k' & K1' & K2'). rewrite (integer_part_unique _ _ _ _ K1 K1') in *. lia.
Qed.
Lemma strict_mend ped : strict ped <-> should_mend ped = false.
Proof.
  unfold should_mend, strict. destruct ped as [l m]. cbn [ped_level ped_mend]. rewrite negb_false_iff, andb_true_iff.
  destruct l, m; cbn; split; intros [H1 H2]; try discriminate; auto; destruct H1; discriminate.
Qed.
Lemma read_advance_says ped e w : read_advance L ped e = Ok w <-> advance_says L ped e w.
Proof.
  unfold read_advance, advance_says. pose proof (strict_mend ped) as SM. destruct (get e "width") as [s|]; cbn [ok_or bind].
  2:{ split; [discriminate|]. intros (s & H & _). discriminate. }
  destruct (parse_u64 s) as [n|] eqn:E.
  { split; [intros [= <-]; eauto|]. intros (s' & [= <-] & [H|[H _]]); congruence. }
  destruct (f32_read L s) as [f|] eqn:Ef.
  2:{ split; [discriminate|]. intros (s' & [= <-] & [H|(_ & _ & f & H & _)]); congruence. }
  destruct (is_subnormal f) eqn:Es.
  { split; [discriminate|]. intros (s' & [= <-] & [H|(_ & _ & f' & H & H' & _)]); congruence. }
  destruct (should_mend ped) eqn:Em; cbn [negb].
  - split.
    + intros [= <-]. exists s. split; [reflexivity|]. right. split; [assumption|]. split; [rewrite SM; discriminate|]. exists f. repeat split; auto. apply cut_to_u64_ok.
    + intros (s' & [= <-] & [H|(_ & _ & f' & H & _ & H')]); [congruence|]. f_equal. rewrite Ef in H. injection H as ->. eapply cut_unique; [apply cut_to_u64_ok|assumption].
  - split; [discriminate|]. intros (s' & [= <-] & [H|(_ & H & _)]); [congruence|]. exfalso. apply H, SM. reflexivity.
Qed.
Lemma read_unicode_says e c : read_unicode e = Ok c <-> unicode_says e c.
Proof.
  unfold read_unicode, unicode_says. destruct (get e "hex") as [s|]; cbn [ok_or bind].
  2:{ split; [discriminate|]. intros (s & H & _). discriminate. }
  destruct (parse_hex_u32 s) as [n|] eqn:E; cbn [ok_or bind].
  2:{ split; [discriminate|]. intros (s' & H & H1 & _). injection H as <-. congruence. }
  unfold char_from_u32. destruct (is_scalar n) eqn:Hn; cbn.
  - split.
    + intros H. injection H as <-. exists s. repeat split; [assumption|]. now apply scalar_is.
    + intros (s' & H & H1 & _). injection H as <-. rewrite H1 in E. now injection E as <-.
  - split; [discriminate|]. intros (s' & H & H1 & H2). injection H as <-. rewrite H1 in E. injection E as <-.
    apply scalar_is in H2. congruence.
Qed.

Lemma mapM_says {A B} (f : A -> res B) (R : A -> B -> Prop) : (forall x y, f x = Ok y <-> R x y) ->
  forall l m, mapM f l = Ok m <-> Forall2 R l m.
Proof.
  intros H. induction l as [|x l IH]; intros m; cbn [mapM].
  - split; [intros [= <-]; constructor|]. intros X. now inversion X.
  - rewrite bind_ok. split.
    + intros (y & H1 & H2). apply bind_ok in H2 as (ys & H3 & H4). injection H4 as <-. constructor; [now apply H|now apply IH].
    + intros X. inversion X as [|? y ? ys H1 H2]; subst. exists y. split; [now apply H|]. apply bind_ok. exists ys. split; [now apply IH|reflexivity].
Qed.

Lemma outline_by_kind_says o gcs ks : outline_by_kind L (hd_error o) = Ok (gcs, ks) <-> outline_says L o gcs ks.
Proof.
  destruct o as [|e o]; cbn [hd_error outline_by_kind outline_says].
  - split; [intros [= <- <-]; auto|]. intros [-> ->]. reflexivity.
  - rewrite bind_ok. split.
    + intros (cs & H1 & H2). apply bind_ok in H2 as (k & H3 & H4). injection H4 as <- <-. exists cs. split; [|split; [reflexivity|]].
      * eapply mapM_says in H1; [exact H1|]. intros x y. apply mapM_says. apply read_point_says.
      * eapply mapM_says in H3; [exact H3|]. apply read_component_says.
    + intros (all & H1 & -> & H2). exists all. split.
      * eapply mapM_says; [|exact H1]. intros x y. apply mapM_says. apply read_point_says.
      * apply bind_ok. exists ks. split; [|reflexivity]. eapply mapM_says; [|exact H2]. apply read_component_says.
Qed.

Lemma read_lib_says ls l : read_lib P (hd_error ls) = l <-> lib_says P ls l.
Proof.
  unfold read_lib, lib_says. destruct ls as [|[n a c] ls]; cbn [hd_error]; [split; congruence|]. cbv zeta. cbn [eattrs echildren].
  destruct (plist_of_element P _); split; congruence.
Qed.

Theorem read_element_says ped root (g : glif PD PL) : read_element L pd0 P ped root = Ok g <-> document_says L pd0 P ped root g.
Proof.
  rewrite read_element_by_kind. unfold read_by_kind, document_says. split.
  - destruct (str_eqb (ename root) (lit "glyph")) eqn:En; cbn [negb]; [|discriminate]. apply str_eqb_eq in En.
    intros H. apply bind_ok in H as (fm & H1 & H). apply ok_or_ok in H1.
    destruct (str_eqb fm (lit "2")) eqn:Ef; cbn [negb] in H; [|discriminate]. apply str_eqb_eq in Ef. subst fm.
    apply bind_ok in H as (nm & H2 & H). apply ok_or_ok in H2. apply bind_ok in H as (w & H3 & H).
    apply bind_ok in H as (us & H4 & H). apply bind_ok in H as (an & H5 & H). apply bind_ok in H as (im & H6 & H).
    apply bind_ok in H as (gl & H7 & H). apply bind_ok in H as ([gcs ks] & H8 & H). cbn [fst snd] in H. apply bind_ok in H as (o & H9 & H).
    injection H as <-. cbn [g_name g_width g_unicode g_anchors g_images g_guidelines g_note g_lib g_filename g_components g_outline cs_root cs_uniques cs_vec].
    split; [assumption|]. split; [assumption|]. split; [assumption|]. split.
    { destruct (named "advance" root) as [|a l]; cbn [hd_error] in H3; [now injection H3 as <-|].
      apply bind_ok in H3 as (w' & H3 & E). injection E as <-. exists w'. split; [reflexivity|]. now apply read_advance_says. }
    split; [eapply mapM_says in H4; [exact H4|apply read_unicode_says]|].
    split; [eapply mapM_says in H5; [exact H5|apply read_anchor_says]|].
    split; [eapply mapM_says in H6; [exact H6|apply read_image_says]|].
    split; [eapply mapM_says in H7; [exact H7|apply read_guideline_says]|].
    split; [destruct (named "note" root); [reflexivity|apply get_text_in]|]. split; [now apply read_lib_says|]. do 3 (split; [reflexivity|]).
    exists gcs, o. split; [now apply outline_by_kind_says|]. split; [assumption|]. destruct o, ks; reflexivity.
  - destruct g as [out an cs gl im w us nm nt fn lb].
    cbn [g_name g_width g_unicode g_anchors g_images g_guidelines g_note g_lib g_filename g_components g_outline].
    destruct cs as [rt ks uq]. cbn [cs_root cs_uniques cs_vec].
    intros (-> & H1 & H2 & H3 & H4 & H5 & H6 & H7 & -> & H8 & -> & -> & -> & gcs & o & H9 & H10 & ->).
    change (str_eqb (lit "glyph") (lit "glyph")) with true. cbn [negb]. rewrite H1. cbn [ok_or bind].
    change (str_eqb (lit "2") (lit "2")) with true. cbn [negb]. rewrite H2. cbn [ok_or bind].
    apply bind_ok. exists w. split.
    { destruct (named "advance" root) as [|a l]; cbn [hd_error]; [now rewrite H3|]. destruct H3 as (w' & -> & H3).
      apply bind_ok. exists w'. split; [now apply read_advance_says|reflexivity]. }
    apply bind_ok. exists us. split; [eapply mapM_says; [apply read_unicode_says|assumption]|].
    apply bind_ok. exists an. split; [eapply mapM_says; [apply read_anchor_says|assumption]|].
    apply bind_ok. exists im. split; [eapply mapM_says; [apply read_image_says|assumption]|].
    apply bind_ok. exists gl. split; [eapply mapM_says; [apply read_guideline_says|assumption]|].
    apply bind_ok. exists (gcs, ks). split; [now apply outline_by_kind_says|]. cbn [fst snd].
    apply bind_ok. exists o. split; [assumption|]. apply read_lib_says in H8. rewrite H8. f_equal. f_equal; [destruct o, ks; reflexivity|destruct (named "note" root); [reflexivity|apply get_text_in]].
Qed.
End Read.
