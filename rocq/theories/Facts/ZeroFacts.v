(** Writing a glyph, and writing it without the minus signs of its zeros. *)
Require Import Coq.Strings.String Coq.Lists.List Coq.Arith.Arith Coq.NArith.NArith Coq.ZArith.ZArith Coq.Bool.Bool Coq.QArith.QArith Coq.QArith.Qabs Coq.Floats.SpecFloat Coq.micromega.Lia.
Require Import Verif.Model.Base Verif.Model.Text Verif.Model.Float Verif.Model.Num Verif.Model.RustNum Verif.Model.Point Verif.Model.Contour
  Verif.Model.Create Verif.Model.Conv Verif.Model.Strings Verif.Model.Names Verif.Model.Pedantry Verif.Model.Color Verif.Model.Xml
  Verif.Model.Parts Verif.Model.Read Verif.Model.Write
  Verif.Spec.TextSpec Verif.Spec.NumSpec Verif.Spec.ContourSpec Verif.Spec.OutlineSpec Verif.Spec.GlyphSpec Verif.Spec.DocumentSpec
  Verif.Spec.AgainSpec Verif.Spec.AccuracySpec Verif.Spec.RoundSpec Verif.Spec.OpenSpec Verif.Spec.RestSpec Verif.Spec.ZeroSpec
  Verif.Facts.ColorFacts Verif.Facts.RustNumFacts Verif.Facts.CreateFacts Verif.Facts.ConvFacts Verif.Facts.XmlFacts Verif.Facts.GlyphFacts
  Verif.Facts.DocumentFacts Verif.Facts.WrittenFacts Verif.Facts.OpenFacts Verif.Facts.AgainFacts Verif.Facts.ArithFacts Verif.Facts.ContourFacts.
Import ListNotations.
Local Open Scope string_scope.
Local Open Scope list_scope.
Local Open Scope nat_scope.

(** ** Numbers *)
Lemma read_f32_plus f : iof_read rust_num (f32_show rust_num (plus f)) = iof_read rust_num (f32_show rust_num f).
Proof. destruct f as [[]|s| |s m e]; [vm_compute; reflexivity|reflexivity..]. Qed.
Lemma read_plus i : iof_read rust_num (iof_show rust_num (plus_number i)) = iof_read rust_num (iof_show rust_num i).
Proof. destruct i as [z|f]; [reflexivity|exact (read_f32_plus f)]. Qed.
Lemma plus_valid f : valid32 f = true -> valid32 (plus f) = true.
Proof. now destruct f. Qed.
Lemma plus_not_minus f : plus f <> S754_zero true.
Proof. now destruct f. Qed.
Lemma plus_legible i : proper i -> legible rust_num (plus_number i).
Proof.
  intros H. apply proper_legible; destruct i as [z|f]; cbn [plus_number proper] in *; try easy.
  - now apply plus_valid.
  - intros X. injection X as X. now apply (plus_not_minus f).
Qed.
Lemma color_plus c : color_parse rust_num (color_show rust_num (plus_color c)) = color_parse rust_num (color_show rust_num c).
Proof.
  unfold color_parse. rewrite !color_split by (intros; apply rust_iof_show_no_comma).
  unfold color_component. cbn [plus_color cr cg cb ca]. now rewrite !read_plus.
Qed.

(** ** Elements that are read in the same way *)
Section Elements.
Context {PD PL : Type} (L : numlib) (pd0 : PD) (P : plistlib PL)
  (read_f32_plus : forall f, iof_read L (f32_show L (plus f)) = iof_read L (f32_show L f))
  (read_plus : forall i, iof_read L (iof_show L (plus_number i)) = iof_read L (iof_show L i))
  (color_plus : forall c, color_parse L (color_show L (plus_color c)) = color_parse L (color_show L c)).

Lemma anchor_plus ped (a : anchor PD) : read_anchor L pd0 ped (anchor_xml L (plus_anchor a)) = read_anchor L pd0 ped (anchor_xml L a).
Proof.
  unfold read_anchor, anchor_xml. destruct a as [x y [c|] d t]; cbn [plus_anchor an_x an_y an_class];
    rewrite ?get_insert, ?get_insert_opt; cbn. all: now rewrite !read_f32_plus.
Qed.
Lemma read_color_plus e e' o : get e "color" = option_map (fun c => color_show L (plus_color c)) o ->
  get e' "color" = option_map (color_show L) o -> read_color L e = read_color L e'.
Proof. unfold read_color. intros -> ->. destruct o as [c|]; [|reflexivity]. cbn [option_map]. now rewrite color_plus. Qed.
Lemma guideline_plus (g : guideline PD) : read_guideline L pd0 (guideline_xml L (plus_guideline g)) = read_guideline L pd0 (guideline_xml L g).
Proof.
  unfold read_guideline.
  rewrite (read_color_plus (guideline_xml L (plus_guideline g)) (guideline_xml L g) (gl_color g)).
  2:{ unfold guideline_xml. rewrite ?get_insert, ?get_insert_opt. now destruct g as [x y a [n|] [c|] [i|] d]. }
  2:{ unfold guideline_xml. rewrite ?get_insert, ?get_insert_opt. now destruct g as [x y a [n|] [c|] [i|] d]. }
  unfold guideline_xml. destruct g as [x y a n c i d]; cbn [plus_guideline gl_x gl_y gl_angle gl_name gl_identifier gl_color].
  rewrite !get_insert_opt, !get_insert. cbn -[iof_read f32_read f32_show iof_show read_color]. now rewrite read_plus.
Qed.
Lemma load_member_plus e e' k msg cur i : get e k = Some (iof_show L (plus_number i)) -> get e' k = Some (iof_show L i) ->
  load_member L e k msg cur = load_member L e' k msg cur.
Proof. unfold load_member. intros -> ->. now rewrite read_plus. Qed.
Lemma load_matrix_plus id m e m0 :
  load_matrix L (write_matrix L id (plus_matrix m) e) m0 = load_matrix L (write_matrix L id m e) m0.
Proof.
  assert (forall k msg cur (f : glifmatrix -> iof), f (plus_matrix m) = plus_number (f m) ->
    (forall m', get (write_matrix L id m' e) k = Some (iof_show L (f m'))) ->
    load_member L (write_matrix L id (plus_matrix m) e) k msg cur = load_member L (write_matrix L id m e) k msg cur) as X.
  { intros k msg cur f Hf Hg. apply (load_member_plus _ _ k msg cur (f m)); rewrite Hg; [now rewrite Hf|reflexivity]. }
  unfold load_matrix.
  rewrite (X "xScale" _ _ m_xScale eq_refl) by (intros; unfold write_matrix; now rewrite !get_insert).
  rewrite (X "xyScale" _ _ m_xyScale eq_refl) by (intros; unfold write_matrix; now rewrite !get_insert).
  rewrite (X "yxScale" _ _ m_yxScale eq_refl) by (intros; unfold write_matrix; now rewrite !get_insert).
  rewrite (X "yScale" _ _ m_yScale eq_refl) by (intros; unfold write_matrix; now rewrite !get_insert).
  rewrite (X "xOffset" _ _ m_xOffset eq_refl) by (intros; unfold write_matrix; now rewrite !get_insert).
  now rewrite (X "yOffset" _ _ m_yOffset eq_refl) by (intros; unfold write_matrix; now rewrite !get_insert).
Qed.
Lemma component_plus c : read_component L (component_xml L (plus_component c)) = read_component L (component_xml L c).
Proof.
  unfold read_component, component_xml. cbn [plus_component c_identifier c_matrix c_base]. rewrite load_matrix_plus.
  unfold write_matrix. now rewrite !get_insert.
Qed.
Lemma image_plus i e e' : image_try_xml L (plus_image i) = Ok e -> image_try_xml L i = Ok e' -> read_image L e = read_image L e'.
Proof.
  unfold image_try_xml. cbn [plus_image i_filename]. destruct (i_filename i) as [s|s]; [|discriminate]. intros E E'.
  apply (f_equal (fun r => match r with Ok x => x | _ => e end)) in E, E'. cbv beta iota in E, E'. rewrite <- E, <- E'.
  assert (forall m, get (write_matrix L (i_identifier i) m (insert "fileName" s (new_element "image"))) "fileName" = Some s) as G.
  { intros m. unfold write_matrix. rewrite !get_insert, get_insert_opt, get_insert. reflexivity. }
  unfold read_image, read_color. cbn [plus_image i_identifier i_matrix]. rewrite !G. cbn [ok_or bind]. rewrite load_matrix_plus.
  unfold write_matrix. rewrite !get_insert, !get_insert_opt, !get_insert. reflexivity.
Qed.
Lemma image_nodes_plus i : image_nodes L (plus_image i) = [] /\ image_nodes L i = [] \/
  exists e e', image_nodes L (plus_image i) = [NElem e] /\ image_nodes L i = [NElem e'] /\
    ename e = lit "image" /\ ename e' = lit "image" /\ read_image L e = read_image L e'.
Proof.
  pose proof (image_plus i) as H. unfold image_nodes, image_try_xml in *. cbn [plus_image i_filename] in *.
  destruct (i_filename i) as [s|s]; [right|now left]. eexists _, _. split; [reflexivity|]. split; [reflexivity|].
  split; [cbn [plus_image i_identifier]; destruct (i_identifier i); reflexivity|]. split; [destruct (i_identifier i); reflexivity|]. now apply H.
Qed.

(** Points. *)
Definition plus_gp (g : glifpoint) : glifpoint := mkGP (plus_number (gx g)) (plus_number (gy g)) (gsmooth g) (gname g) (gptype g).
Lemma gp_plus dbg g : (exists e e', gp_xml L dbg (plus_gp g) = Ok e /\ gp_xml L dbg g = Ok e' /\
    ename e = lit "point" /\ ename e' = lit "point" /\ read_point L e = read_point L e') \/
  (gp_xml L dbg (plus_gp g) = Panic /\ gp_xml L dbg g = Panic).
Proof.
  unfold gp_xml. cbn [plus_gp gx gy gsmooth gname gptype].
  set (tag := str_eqb (ptype_show (gptype g)) (lit "offcurve")). set (no := dbg && ptype_eqb (gptype g) OffCurve).
  destruct (gsmooth g); [destruct no; [now right|]|]; left; eexists _, _; (split; [reflexivity|]); (split; [reflexivity|]);
    (split; [destruct tag, (gname g); reflexivity|]); (split; [destruct tag, (gname g); reflexivity|]);
    unfold read_point; destruct tag; rewrite ?get_insert, ?get_insert_opt, ?get_insert, ?get_new; cbn -[iof_read iof_show ptype_of_str ptype_show];
    now rewrite !read_plus.
Qed.

(** Contours. *)
Context (of_plus : forall f, iof_of_f32 L (plus f) = plus_number (iof_of_f32 L f)).
Lemma gp_of_plus (p : point PD) : gp_of_point L (plus_point p) = plus_gp (gp_of_point L p).
Proof. unfold gp_of_point, plus_gp. cbn. now rewrite !of_plus. Qed.
Lemma gp_from_plus (p : point PD) w : gp_from_handle L (plus_point p) w = plus_gp (gp_from_handle L p w).
Proof.
  unfold gp_from_handle, handle_or_colocated, get_handle, gp_from_x_y_type, plus_gp. cbn [plus_point pa pb px py].
  destruct w, (pa p), (pb p); cbn; now rewrite !of_plus.
Qed.
Lemma interleave3_map {A B} (f : A -> B) : forall a b c, interleave3 (map f a) (map f b) (map f c) = map f (interleave3 a b c).
Proof. induction a as [|x a IH]; intros [|y b] [|z c]; cbn; try reflexivity. now rewrite IH. Qed.
Lemma rotate_right1_map {A B} (f : A -> B) l : rotate_right1 (map f l) = map f (rotate_right1 l).
Proof. unfold rotate_right1. rewrite <- map_rev. destruct (rev l) as [|x r]; [reflexivity|]. cbn [map]. now rewrite map_rev. Qed.
Lemma combine_map {A B C} (f : B -> C) : forall (l : list A) m, combine l (map f m) = map (fun it => (fst it, f (snd it))) (combine l m).
Proof. induction l as [|x l IH]; intros [|y m]; cbn; try reflexivity. now rewrite IH. Qed.
Lemma filter_map_fst {A B} (f : B -> B) (k : A -> bool) (l : list (A * B)) :
  map snd (filter (fun it => k (fst it)) (map (fun it => (fst it, f (snd it))) l)) = map f (map snd (filter (fun it => k (fst it)) l)).
Proof. induction l as [|[a b] l IH]; [reflexivity|]. cbn. destruct (k a); cbn; now rewrite IH. Qed.
Definition plus_result (r : res (list glifpoint)) : res (list glifpoint) :=
  match r with Ok l => Ok (map plus_gp l) | Err e => Err e | Panic => Panic end.
Lemma cleanup_plus dbg c : cleanup_offcurves dbg (map plus_gp c) = plus_result (cleanup_offcurves dbg c).
Proof.
  unfold cleanup_offcurves.
  assert (oncurve_types (map plus_gp c) = oncurve_types c) as ->.
  { unfold oncurve_types. rewrite map_length, map_map. reflexivity. }
  destruct (dbg && negb (forallb _ _)); [reflexivity|]. destruct (mapM _ _) as [kss|e|]; try reflexivity. cbn [bind]. cbv zeta.
  rewrite (map_length plus_gp c), combine_map, (filter_map_fst plus_gp (fun i => existsb (Nat.eqb i) (nodup Nat.eq_dec (concat kss)))), (map_length plus_gp).
  now destruct (dbg && _).
Qed.
Lemma rotate_to_plus : forall fuel l, rotate_to_oncurve fuel (map plus_gp l) = option_map plus_result (rotate_to_oncurve fuel l).
Proof.
  induction fuel as [|fuel IH]; intros [|g l]; try reflexivity; cbn [map rotate_to_oncurve plus_gp gptype];
    destruct (ptype_eqb (gptype g) OffCurve); try reflexivity.
  change (plus_gp g :: map plus_gp l) with (map plus_gp (g :: l)). rewrite <- IH, <- rotate_right1_map. reflexivity.
Qed.
Lemma into_plus dbg fuel (c : contour PD) : into_glifpoints L dbg fuel (map plus_point c) = option_map plus_result (into_glifpoints L dbg fuel c).
Proof.
  assert (forall c : contour PD, c <> [] -> into_glifpoints L dbg fuel c =
    match cleanup_offcurves dbg (interleave3 (rotate_right1 (map (fun p => gp_from_handle L p WA) c)) (map (fun p => gp_from_handle L p WB) c) (map (gp_of_point L) c)) with
    | Ok kept => rotate_to_oncurve fuel kept | Err e => Some (Err e) | Panic => Some Panic end) as X by (intros [|p t] H; [congruence|reflexivity]).
  assert (c = [] \/ c <> []) as [->|Hc] by (destruct c; [now left|right; discriminate]); [reflexivity|].
  rewrite !X by (assumption || (destruct c; [congruence|discriminate])). clear X. rewrite !map_map.
  rewrite (map_ext _ (fun x => plus_gp (gp_of_point L x)) gp_of_plus).
  rewrite (map_ext _ (fun x => plus_gp (gp_from_handle L x WA)) (fun x => gp_from_plus x WA)).
  rewrite (map_ext _ (fun x => plus_gp (gp_from_handle L x WB)) (fun x => gp_from_plus x WB)).
  rewrite <- (map_map (gp_of_point L) plus_gp), <- (map_map (fun x => gp_from_handle L x WA) plus_gp), <- (map_map (fun x => gp_from_handle L x WB) plus_gp).
  rewrite rotate_right1_map, interleave3_map, cleanup_plus.
  destruct (cleanup_offcurves _ _) as [k|e|]; try reflexivity. cbn [plus_result]. apply rotate_to_plus.
Qed.

(** Two elements of the same name, out of which the same is read. *)
Definition reads_alike {B} (f : element -> res B) (n : string) (e e' : element) : Prop := ename e = lit n /\ ename e' = lit n /\ f e = f e'.
Lemma named_alike {B} (f : element -> res B) n l l' : Forall2 (reads_alike f n) l l' ->
  Forall (fun e => ename e = lit n) l /\ Forall (fun e => ename e = lit n) l' /\ mapM f l = mapM f l'.
Proof.
  induction 1 as [|e e' l l' (H1 & H2 & H3) _ (I1 & I2 & I3)]; [repeat split; constructor|].
  split; [now constructor|]. split; [now constructor|]. cbn [mapM]. now rewrite H3, I3.
Qed.
Lemma mapM_plus {A B} (f g : A -> res element) (r : element -> res B) n l :
  (forall x, (exists e e', f x = Ok e /\ g x = Ok e' /\ reads_alike r n e e') \/ (f x = Panic /\ g x = Panic) \/ (exists er, f x = Err er /\ g x = Err er)) ->
  (exists es es', mapM f l = Ok es /\ mapM g l = Ok es' /\ Forall2 (reads_alike r n) es es') \/ (mapM f l = Panic /\ mapM g l = Panic) \/ (exists er, mapM f l = Err er /\ mapM g l = Err er).
Proof.
  intros H. induction l as [|x l IH]; [left; exists [], []; repeat split; constructor|]. cbn [mapM].
  destruct (H x) as [(e & e' & -> & -> & R)|[(-> & ->)|(er & -> & ->)]]; cbn [bind]; [|tauto|eauto].
  destruct IH as [(es & es' & -> & -> & F)|[(-> & ->)|(er & -> & ->)]]; cbn [bind]; [|tauto|eauto].
  left. exists (e :: es), (e' :: es'). repeat split; now constructor.
Qed.
Definition points_of (e : element) : res (list glifpoint) := mapM (read_point L) (named "point" e).
Lemma contour_plus dbg (c : contour PD) :
  (exists e e', contour_xml L dbg (map plus_point c) = Ok e /\ contour_xml L dbg c = Ok e' /\ reads_alike points_of "contour" e e') \/
  (contour_xml L dbg (map plus_point c) = Panic /\ contour_xml L dbg c = Panic) \/
  (exists er, contour_xml L dbg (map plus_point c) = Err er /\ contour_xml L dbg c = Err er).
Proof.
  unfold contour_xml. rewrite map_length, into_plus. destruct (into_glifpoints L dbg _ c) as [[gps|e|]|]; cbn [option_map plus_result]; [|right; right; eauto|tauto|tauto].
  unfold gcontour_xml.
  destruct (mapM_plus (fun g => gp_xml L dbg (plus_gp g)) (gp_xml L dbg) (read_point L) "point" gps) as [(es & es' & E & E' & F)|[(E & E')|(er & E & E')]].
  { intros g. destruct (gp_plus dbg g) as [(e & e' & H)|H]; [left; exists e, e'; unfold reads_alike; tauto|tauto]. }
  all: assert (mapM (gp_xml L dbg) (map plus_gp gps) = mapM (fun g => gp_xml L dbg (plus_gp g)) gps) as -> by (clear; induction gps as [|g l IH]; [reflexivity|]; cbn [map mapM]; now rewrite IH).
  - rewrite E, E'. cbn [bind]. left. eexists _, _. split; [reflexivity|]. split; [reflexivity|]. split; [reflexivity|]. split; [reflexivity|].
    destruct (named_alike _ _ _ _ F) as (N1 & N2 & R). unfold points_of, named. cbn [echildren]. 
    rewrite !(children_all (lit "point")) by assumption. exact R.
  - rewrite E, E'. cbn [bind]. tauto.
  - rewrite E, E'. cbn [bind]. right; right. eauto.
Qed.

(** Glyphs. *)
Section Roots.
Context (adv us nt ls : list element)
  (N1 : Forall (fun e => ename e = lit "advance") adv) (N2 : Forall (fun e => ename e = lit "unicode") us)
  (N7 : Forall (fun e => ename e = lit "note") nt) (N8 : Forall (fun e => ename e = lit "lib") ls).
Definition root_of (attrs : list (str * str)) (an os im gl : list element) : element :=
  Element (lit "glyph") attrs (map NElem adv ++ map NElem us ++ map NElem an ++ map NElem os ++ map NElem im ++ map NElem gl ++ map NElem nt ++ map NElem ls).
Lemma root_named attrs an os im gl :
  Forall (fun e => ename e = lit "anchor") an -> Forall (fun e => ename e = lit "outline") os ->
  Forall (fun e => ename e = lit "image") im -> Forall (fun e => ename e = lit "guideline") gl ->
  let r := root_of attrs an os im gl in
  named "advance" r = adv /\ named "unicode" r = us /\ named "anchor" r = an /\ named "outline" r = os /\
  named "image" r = im /\ named "guideline" r = gl /\ named "note" r = nt /\ named "lib" r = ls.
Proof.
  intros N3 N4 N5 N6 r. subst r.
  assert (forall k, named k (root_of attrs an os im gl) =
    children_named (lit k) (map NElem adv) ++ children_named (lit k) (map NElem us) ++ children_named (lit k) (map NElem an) ++
    children_named (lit k) (map NElem os) ++ children_named (lit k) (map NElem im) ++ children_named (lit k) (map NElem gl) ++
    children_named (lit k) (map NElem nt) ++ children_named (lit k) (map NElem ls)) as X.
  { intros k. unfold named, root_of. cbn [echildren]. now rewrite !children_named_app. }
  rewrite !X. clear X.
  repeat match goal with
  | H : Forall (fun e => ename e = lit ?m) ?l |- context [children_named (lit ?n) (map NElem ?l)] =>
      match m with
      | n => rewrite (children_all (lit n) l H)
      | _ => rewrite (children_none (lit n) (lit m) l H) by discriminate
      end
  end.
  rewrite ?app_nil_r. cbn [app]. repeat split; now rewrite ?app_nil_r.
Qed.
Lemma roots_alike ped attrs an os im gl an' os' im' gl' :
  Forall2 (reads_alike (read_anchor L pd0 ped) "anchor") an an' ->
  Forall2 (reads_alike (fun o => outline_by_kind L (Some o)) "outline") os os' ->
  Forall2 (reads_alike (read_image L) "image") im im' ->
  Forall2 (reads_alike (read_guideline L pd0) "guideline") gl gl' ->
  read_element L pd0 P ped (root_of attrs an os im gl) = read_element L pd0 P ped (root_of attrs an' os' im' gl').
Proof.
  intros A O I G. pose proof (hd_alike _ _ _ O) as Hh.
  apply named_alike in A as (A1 & A2 & A3), O as (O1 & O2 & O3), I as (I1 & I2 & I3), G as (G1 & G2 & G3).
  rewrite !read_element_by_kind. unfold read_by_kind.
  destruct (root_named attrs an os im gl A1 O1 I1 G1) as (-> & -> & -> & -> & -> & -> & -> & ->).
  destruct (root_named attrs an' os' im' gl' A2 O2 I2 G2) as (-> & -> & -> & -> & -> & -> & -> & ->).
  rewrite A3, I3, G3.
  assert (outline_by_kind L (hd_error os) = outline_by_kind L (hd_error os')) as ->; [|reflexivity].
  destruct Hh as [[-> ->]|(e & e' & -> & -> & _ & _ & H)]; [reflexivity|exact H].
Qed.
End Roots.

Lemma anchors_alike ped (l : list (anchor PD)) : Forall2 (reads_alike (read_anchor L pd0 ped) "anchor") (map (anchor_xml L) (map plus_anchor l)) (map (anchor_xml L) l).
Proof. induction l as [|a l IH]; constructor; [|exact IH]. split; [apply anchor_name|]. split; [apply anchor_name|]. apply anchor_plus. Qed.
Lemma guidelines_alike (l : list (guideline PD)) : Forall2 (reads_alike (read_guideline L pd0) "guideline") (map (guideline_xml L) (map plus_guideline l)) (map (guideline_xml L) l).
Proof. induction l as [|a l IH]; constructor; [|exact IH]. split; [apply guideline_name|]. split; [apply guideline_name|]. apply guideline_plus. Qed.
Lemma components_alike l : Forall2 (reads_alike (read_component L) "component") (map (component_xml L) (map plus_component l)) (map (component_xml L) l).
Proof. induction l as [|a l IH]; constructor; [|exact IH]. split; [apply component_name|]. split; [apply component_name|]. apply component_plus. Qed.
Lemma images_alike l : exists im im', flat_map (image_nodes L) (map plus_image l) = map NElem im /\ flat_map (image_nodes L) l = map NElem im' /\
  Forall2 (reads_alike (read_image L) "image") im im'.
Proof.
  induction l as [|i l (im & im' & E & E' & F)]; [exists [], []; repeat split; constructor|]. cbn [map flat_map]. rewrite E, E'.
  destruct (image_nodes_plus i) as [[-> ->]|(e & e' & -> & -> & H1 & H2 & H3)]; [exists im, im'; auto|].
  exists (e :: im), (e' :: im'). repeat split; constructor; [split; [exact H1|]; split; assumption|exact F].
Qed.
Definition outline_nodes (oc : list element) : list element := match oc with [] => [] | _ => [Element (lit "outline") [] (map NElem oc)] end.
Lemma outline_nodes_ok oc : match map NElem oc with [] => [] | _ => [NElem (Element (lit "outline") [] (map NElem oc))] end = map NElem (outline_nodes oc).
Proof. now destruct oc. Qed.
Lemma outline_reads ces ks : Forall (fun e => ename e = lit "contour") ces -> Forall (fun e => ename e = lit "component") ks ->
  outline_by_kind L (Some (Element (lit "outline") [] (map NElem (ces ++ ks)))) =
  (let* cs := mapM points_of ces in let* k := mapM (read_component L) ks in Ok (filter nonempty cs, k)).
Proof.
  intros C K. cbn [outline_by_kind].
  assert (named "contour" (Element (lit "outline") [] (map NElem (ces ++ ks))) = ces) as ->.
  { unfold named. cbn [echildren]. rewrite map_app, children_named_app, (children_all _ ces C), (children_none _ _ ks K), app_nil_r by discriminate. reflexivity. }
  assert (named "component" (Element (lit "outline") [] (map NElem (ces ++ ks))) = ks) as ->.
  { unfold named. cbn [echildren]. rewrite map_app, children_named_app, (children_all _ ks K), (children_none _ _ ces C) by discriminate. reflexivity. }
  reflexivity.
Qed.
Lemma outlines_alike ces ces' ks ks' : Forall2 (reads_alike points_of "contour") ces ces' -> Forall2 (reads_alike (read_component L) "component") ks ks' ->
  Forall2 (reads_alike (fun o => outline_by_kind L (Some o)) "outline") (outline_nodes (ces ++ ks)) (outline_nodes (ces' ++ ks')).
Proof.
  intros C K. pose proof (named_alike _ _ _ _ C) as (C1 & C2 & C3). pose proof (named_alike _ _ _ _ K) as (K1 & K2 & K3).
  pose proof (outline_reads ces ks C1 K1) as R. pose proof (outline_reads ces' ks' C2 K2) as R'. rewrite C3, K3, <- R' in R. clear R'.
  assert (forall l l' : list element, (l = [] <-> l' = []) ->
    outline_by_kind L (Some (Element (lit "outline") [] (map NElem l))) = outline_by_kind L (Some (Element (lit "outline") [] (map NElem l'))) ->
    Forall2 (reads_alike (fun o => outline_by_kind L (Some o)) "outline") (outline_nodes l) (outline_nodes l')) as X.
  { intros [|x l] [|y l'] H E; cbn [outline_nodes]; [constructor|destruct H as [H _]; now discriminate H|destruct H as [_ H]; now discriminate H|].
    constructor; [|constructor]. split; [reflexivity|]. split; [reflexivity|]. exact E. }
  apply X; [|exact R]. destruct C, K; cbn [app]; split; (reflexivity || discriminate).
Qed.

(** Saving fails for both or for neither, and what is saved is read in the same way. *)
Lemma glyph_plus dbg ped (g : glif PD PL) :
  (exists e e', glif_xml L P dbg (plus_zeros g) = Ok e /\ glif_xml L P dbg g = Ok e' /\ read_element L pd0 P ped e = read_element L pd0 P ped e') \/
  (glif_xml L P dbg (plus_zeros g) = Panic /\ glif_xml L P dbg g = Panic) \/
  (exists er, glif_xml L P dbg (plus_zeros g) = Err er /\ glif_xml L P dbg g = Err er).
Proof.
  rewrite !glif_xml_children.
  assert (contours (plus_zeros g) = map (map plus_point) (contours g)) as -> by (unfold contours; cbn [plus_zeros g_outline]; now destruct (g_outline g)).
  assert (mapM (contour_xml L dbg) (map (map plus_point) (contours g)) = mapM (fun c => contour_xml L dbg (map plus_point c)) (contours g)) as ->
    by (induction (contours g) as [|c l IH]; [reflexivity|]; cbn [map mapM]; now rewrite IH).
  destruct (mapM_plus (fun c => contour_xml L dbg (map plus_point c)) (contour_xml L dbg) points_of "contour" (contours g) (contour_plus dbg)) as [(es & es' & E & E' & F)|[(E & E')|(er & E & E')]];
    unfold contour in *; rewrite E, E'; cbn [bind]; [|tauto|right; right; eauto]. cbv zeta. left. eexists _, _. split; [reflexivity|]. split; [reflexivity|].
  cbn [plus_zeros g_width g_unicode g_note g_lib g_name g_anchors g_images g_guidelines g_components cs_vec].
  destruct (images_alike (g_images g)) as (im & im' & -> & -> & I). destruct (lib_nodes_ok P (g_lib g)) as (ls & -> & N8 & _).
  rewrite <- !map_app, !outline_nodes_ok.
  set (adv := match g_width g with Some w => [advance_xml w] | None => [] end).
  assert (match g_width g with Some w => [NElem (advance_xml w)] | None => [] end = map NElem adv) as -> by (subst adv; destruct (g_width g); reflexivity).
  set (nt := match g_note g with Some n => [Element (lit "note") [] [NText n]] | None => [] end).
  assert (match g_note g with Some n => [NElem (Element (lit "note") [] [NText n])] | None => [] end = map NElem nt) as -> by (subst nt; destruct (g_note g); reflexivity).
  apply (roots_alike adv (map codepoint_xml (g_unicode g)) nt ls).
  - subst adv. destruct (g_width g); repeat constructor.
  - exact (Forall_map_name codepoint_xml (lit "unicode") (g_unicode g) (fun _ => eq_refl)).
  - subst nt. destruct (g_note g); repeat constructor.
  - exact N8.
  - apply anchors_alike.
  - apply outlines_alike; [exact F|apply components_alike].
  - exact I.
  - apply guidelines_alike.
Qed.
End Elements.

(** ** The numbers of the standard library *)
Section Rust.
Context {PD PL : Type} (pd0 : PD) (P : plistlib PL).

Lemma rust_glyph_plus dbg ped (g : glif PD PL) :
  (exists e e', glif_xml rust_num P dbg (plus_zeros g) = Ok e /\ glif_xml rust_num P dbg g = Ok e' /\ read_element rust_num pd0 P ped e = read_element rust_num pd0 P ped e') \/
  (glif_xml rust_num P dbg (plus_zeros g) = Panic /\ glif_xml rust_num P dbg g = Panic) \/
  (exists er, glif_xml rust_num P dbg (plus_zeros g) = Err er /\ glif_xml rust_num P dbg g = Err er).
Proof. apply glyph_plus; [exact read_f32_plus|exact read_plus|exact color_plus|reflexivity]. Qed.

Lemma members_plus m : members (plus_matrix m) = map plus_number (members m).
Proof. reflexivity. Qed.
Lemma all_plus l : Forall proper l -> Forall (legible rust_num) (map plus_number l).
Proof. induction 1; constructor; [now apply plus_legible|assumption]. Qed.
Lemma coordinates_plus (p : point PD) : coordinates (plus_point p) = map plus (coordinates p).
Proof. unfold coordinates. cbn [plus_point px py pa pb]. now destruct (pa p), (pb p). Qed.
Lemma plus_anchor_f32 f : valid32 f = true -> legible_anchor_f32 rust_num (plus f).
Proof. intros H. apply (rust_iof_round_trip (plus f)); [now apply plus_valid|apply plus_not_minus]. Qed.

Lemma opened_rest ped root (g : glif PD PL) : read_element rust_num pd0 P ped root = Ok g ->
  lib_ok P (g_lib g) -> glyph_ok rust_num P (without_contours (plus_zeros g)).
Proof.
  intros H Hlib.
  apply read_element_says in H. destruct H as (_ & _ & _ & Hw & Hu & Ha & Hi & Hgl & _ & _ & _ & _ & _ & gcs & o & Ho & _ & _).
  assert (Forall2 (component_says rust_num) (match named "outline" root with [] => [] | oe :: _ => named "component" oe end) (cs_vec (g_components g))) as Hk.
  { unfold outline_says in Ho. destruct (named "outline" root); [destruct Ho as [_ ->]; constructor|]. destruct Ho as (? & _ & _ & X). exact X. }
  assert (forall A B (f : A -> B) (Q : B -> Prop) l, Forall (fun x => Q (f x)) l -> Forall Q (map f l)) as FM.
  { intros A B f Q l X. apply Forall_map. exact X. }
  split.
  { intros w E. cbn [without_contours plus_zeros g_width] in E. destruct (named "advance" root); [congruence|]. destruct Hw as (w' & E' & X). rewrite E in E'. injection E' as <-. eapply width_bound; exact X. }
  split. { eapply Forall2_Forall_r; [exact Hu|]. intros e c _ (s & _ & _ & X). exact X. }
  split.
  { apply FM. eapply Forall2_Forall_r; [exact Ha|]. intros e a Hin X. destruct (anchor_valid pd0 ped e a X) as [Vx Vy].
    split; [now apply plus_anchor_f32|]. split; [now apply plus_anchor_f32|]. exact (anchor_class_ok pd0 ped e a X). }
  split.
  { apply FM. eapply Forall2_Forall_r; [exact Hgl|]. intros e l Hin ((sx & _ & Hx) & (sy & _ & Hy) & Hang & _ & Hcol & _).
    apply f32_read_valid in Hx, Hy. apply number_at_proper in Hang.
    split; [exact (rust_f32_round_trip _ Hx)|]. split; [exact (rust_f32_round_trip _ Hy)|].
    split; [now apply plus_legible|]. cbn [plus_guideline gl_color]. intros c' Ec. destruct (gl_color l) as [c|]; [|discriminate]. injection Ec as <-.
    pose proof (color_proper e c Hcol) as Hp. rewrite Forall_forall in Hp. intros i Hi'. split; [|apply rust_iof_show_no_comma].
    cbn in Hi'. destruct Hi' as [<-|[<-|[<-|[<-|[]]]]]; apply plus_legible; apply Hp; cbn; auto. }
  split.
  { apply FM. eapply Forall2_Forall_r; [exact Hk|]. intros e k Hin (_ & X & _). unfold component_ok. cbn [plus_component c_matrix]. rewrite members_plus.
    apply all_plus. eapply matrix_proper; [| |exact X]; [reflexivity|cbn; lia]. }
  split.
  { apply FM. eapply Forall2_Forall_r; [exact Hi|]. intros e k Hin ((s & _ & E) & X & _). split; [intros s'; cbn [plus_image i_filename]; rewrite E; discriminate|].
    cbn [plus_image i_matrix]. rewrite members_plus. apply all_plus. eapply matrix_proper; [| |exact X]; cbn; lia. }
  split; [exact Hlib|constructor].
Qed.
Lemma opened_plus ped root (g : glif PD PL) : read_element rust_num pd0 P ped root = Ok g ->
  (forall ce, In ce (contours_in root) -> plain_contour ce) -> lib_ok P (g_lib g) -> glyph_ok rust_num P (plus_zeros g).
Proof.
  intros H Hpl Hlib. destruct (contours_read rust_num pd0 P ped root g H) as [Hc _].
  destruct (opened_rest ped root g H Hlib) as (Q1 & Q2 & Q3 & Q4 & Q5 & Q6 & Q7 & _).
  do 7 (split; [assumption|]). clear - Hc Hpl.
  assert (forall A B (f : A -> B) (Q : B -> Prop) l, Forall (fun x => Q (f x)) l -> Forall Q (map f l)) as FM.
  { intros A B f Q l X. apply Forall_map. exact X. }
  assert (contours (plus_zeros g) = map (map plus_point) (contours g)) as -> by (unfold contours; cbn [plus_zeros g_outline]; now destruct (g_outline g)).
  apply FM. apply Forall_forall. intros c Hin. destruct (Hc c Hin) as (ce & Hce & Hr).
  destruct (contour_is_plain ce c (Hpl ce Hce) Hr) as [(p & t & -> & Hp & Ht) Hv]. split.
  - exists (plus_point p), (map plus_point t). split; [reflexivity|]. split.
    + cbn [plus_point pptype]. destruct Hp as [[X Y]|Hp]; [|tauto]. left. split; [exact X|]. destruct t; [congruence|discriminate].
    + apply FM. exact Ht.
  - intros q f Hq Hf. apply in_map_iff in Hq as (q0 & <- & Hq). rewrite coordinates_plus in Hf. apply in_map_iff in Hf as (f0 & <- & Hf).
    apply (plus_legible (IFloat f0)). exact (Hv q0 f0 Hq Hf).
Qed.

(** Without minus zeros, nothing changes. *)
Lemma plus_same f : f <> S754_zero true -> plus f = f.
Proof. destruct f as [[]|s| |s m e]; intros H; try reflexivity. now destruct H. Qed.
Lemma plus_number_same i : i <> IFloat (S754_zero true) -> plus_number i = i.
Proof. destruct i as [z|f]; [reflexivity|]. intros H. cbn [plus_number]. rewrite plus_same; [reflexivity|]. intros ->. now apply H. Qed.
Lemma map_same {A} (f : A -> A) l : (forall x, In x l -> f x = x) -> map f l = l.
Proof. induction l as [|x l IH]; intros H; [reflexivity|]. cbn [map]. rewrite (H x (or_introl eq_refl)), IH; [reflexivity|]. intros y Hy. apply H. now right. Qed.
Lemma plus_matrix_same m : (forall i, In i (members m) -> i <> IFloat (S754_zero true)) -> plus_matrix m = m.
Proof. destruct m as [a b c d e f]. intros H. unfold plus_matrix. cbn in *. rewrite !plus_number_same by (apply H; tauto). reflexivity. Qed.
Lemma plus_zeros_same (g : glif PD PL) : no_minus_zero g -> plus_zeros g = g.
Proof.
  intros Hz. assert (forall i, In i (numbers g) -> i <> IFloat (S754_zero true)) as N by (intros i Hi ->; exact (Hz Hi)). clear Hz.
  unfold numbers in N. setoid_rewrite in_app_iff in N. setoid_rewrite in_app_iff in N. setoid_rewrite in_app_iff in N. setoid_rewrite in_app_iff in N.
  destruct g as [o an [cr cv cu] gl im w u n nt fn lb]. unfold plus_zeros. cbn [g_outline g_anchors g_components g_guidelines g_images g_width g_unicode g_name g_note g_filename g_lib cs_root cs_vec cs_uniques] in *.
  f_equal.
  - unfold contours in N. cbn [g_outline] in N. destruct o as [o|]; [|reflexivity]. cbn [option_map]. f_equal. apply map_same. intros c Hc. apply map_same. intros p Hp.
    assert (forall f, In f (coordinates p) -> plus f = f) as X.
    { intros f Hf. apply plus_same. intros ->. apply (N (IFloat (S754_zero true))); [|reflexivity]. right; right; right; right.
      apply in_map. apply in_flat_map. exists p. split; [|exact Hf]. apply in_concat. eauto. }
    destruct p as [x y a b nm ty sm d]. unfold plus_point, coordinates in *. cbn [px py pa pb pname pptype psmooth pdata] in *.
    rewrite (X x), (X y) by (cbn; auto). f_equal; [destruct a as [ax ay|]|destruct b as [bx by_|]]; try reflexivity; cbn [plus_handle]; f_equal; apply X; cbn; rewrite ?in_app_iff; cbn; auto 10.
  - apply map_same. intros a Ha. destruct a as [x y cl d ty]. unfold plus_anchor. cbn.
    rewrite !plus_same; [reflexivity| |]; intros ->; apply (N (IFloat (S754_zero true))); try reflexivity; left; apply in_flat_map; eexists; (split; [exact Ha|]); cbn; auto.
  - f_equal. apply map_same. intros c Hc. destruct c as [b f m i]. unfold plus_component. cbn. f_equal. apply plus_matrix_same.
    intros j Hj. apply N. right; right; left. apply in_flat_map. eexists. split; [exact Hc|exact Hj].
  - apply map_same. intros l Hl. assert (forall j, In j (gl_angle l :: numbers_of_color (gl_color l)) -> plus_number j = j) as X.
    { intros j Hj. apply plus_number_same. apply N. right; left. apply in_flat_map. eauto. }
    destruct l as [x y a nm c id d]. unfold plus_guideline. cbn [gl_x gl_y gl_angle gl_name gl_color gl_identifier gl_data] in *. rewrite (X a (or_introl eq_refl)). f_equal.
    destruct c as [[r g b al]|]; [|reflexivity]. cbn [option_map]. unfold plus_color. cbn in *. now rewrite !X by tauto.
  - apply map_same. intros c Hc. destruct c as [f m i cl]. unfold plus_image. cbn. f_equal. apply plus_matrix_same.
    intros j Hj. apply N. right; right; right; left. apply in_flat_map. eexists. split; [exact Hc|exact Hj].
Qed.

(** ** No minus zeros in what was saved and opened *)
Lemma int_not_minus z : f32_of_Z z <> S754_zero true.
Proof.
  intros H. destruct (Z.eq_dec z 0) as [->|Hz]; [discriminate H|].
  pose proof (int_rounded z) as R. rewrite H in R. destruct R as (_ & q & (_ & Hq) & N).
  assert (q == 0)%Q as Eq by (destruct Hq as (v & Hv & Eq); injection Hv as <-; symmetry; exact Eq).
  destruct (N (f32_of_Z (Z.sgn z)) (inject_Z (Z.sgn z))) as [X _]; [apply int_float; destruct z; cbn; lia|].
  rewrite Eq in X.
  assert (Qabs (0 - inject_Z z) == inject_Z (Z.abs z))%Q as E1 by (setoid_replace (0 - inject_Z z)%Q with (inject_Z (- z)) by (rewrite inject_Z_opp; ring); change (Qabs (inject_Z (- z))) with (inject_Z (Z.abs (- z))); now rewrite Z.abs_opp).
  assert (Qabs (inject_Z (Z.sgn z) - inject_Z z) == inject_Z (Z.abs (Z.sgn z - z)))%Q as E2 by (setoid_replace (inject_Z (Z.sgn z) - inject_Z z)%Q with (inject_Z (Z.sgn z - z)) by (unfold Z.sub; rewrite inject_Z_plus, inject_Z_opp; ring); reflexivity).
  rewrite E1, E2, <- Zle_Qle in X. lia.
Qed.
Lemma same_not_minus i j : same_number i j -> j <> IFloat (S754_zero true) -> i <> IFloat (S754_zero true).
Proof.
  intros H N ->. destruct j as [z|f]; cbn in H; [symmetry in H; now apply int_not_minus in H|]. apply N. now f_equal.
Qed.
Lemma no_minus_plus (g : glif PD PL) : no_minus_zero (plus_zeros g).
Proof.
  unfold no_minus_zero, numbers. rewrite !in_app_iff, !in_flat_map. cbn [plus_zeros g_anchors g_guidelines g_components cs_vec g_images].
  assert (forall i, plus_number i <> IFloat (S754_zero true)) as N by (intros [z|f] X; [discriminate X|]; injection X as X; now apply (plus_not_minus f)).
  intros [(a & Ha & Hi)|[(l & Hl & Hi)|[(c & Hc & Hi)|[(c & Hc & Hi)|Hi]]]].
  - apply in_map_iff in Ha as (a0 & <- & _). cbn in Hi. destruct Hi as [X|[X|[]]]; injection X as X; now apply plus_not_minus in X.
  - apply in_map_iff in Hl as (l0 & <- & _). cbn [plus_guideline gl_angle gl_color] in Hi. destruct Hi as [X|Hi]; [now apply N in X|].
    destruct (gl_color l0) as [c|]; [|destruct Hi]. cbn in Hi. destruct Hi as [X|[X|[X|[X|[]]]]]; now apply N in X.
  - apply in_map_iff in Hc as (c0 & <- & _). cbn [plus_component c_matrix] in Hi. rewrite members_plus in Hi. apply in_map_iff in Hi as (i & X & _). now apply N in X.
  - apply in_map_iff in Hc as (c0 & <- & _). cbn [plus_image i_matrix] in Hi. rewrite members_plus in Hi. apply in_map_iff in Hi as (i & X & _). now apply N in X.
  - apply in_map_iff in Hi as (f & X & Hf). injection X as ->. apply in_flat_map in Hf as (p & Hp & Hf).
    assert (contours (plus_zeros g) = map (map plus_point) (contours g)) as E by (unfold contours; cbn [plus_zeros g_outline]; now destruct (g_outline g)).
    rewrite E, <- concat_map in Hp. apply in_map_iff in Hp as (p0 & <- & _). rewrite coordinates_plus in Hf. apply in_map_iff in Hf as (f & X & _). now apply plus_not_minus in X.
Qed.
Lemma stored_coordinates (c c' : list (point PD)) : stored_as c c' -> forall f, In f (flat_map coordinates c') -> In f (flat_map coordinates c).
Proof.
  intros [Hl H] f Hf. apply in_flat_map in Hf as (p' & Hp' & Hf). apply In_nth_error in Hp' as (i & Hi).
  assert (i < length c) as Hlt by (rewrite <- Hl; apply nth_error_Some; congruence).
  destruct (nth_error c i) as [p|] eqn:Ep; [|apply nth_error_None in Ep; lia].
  assert (next_of (length c) i < length c) as Hn by (unfold next_of; apply Nat.mod_upper_bound; lia).
  destruct (nth_error c (next_of (length c) i)) as [q|] eqn:Eq; [|apply nth_error_None in Eq; lia].
  destruct (H i p q Ep Eq) as (p1 & E1 & Hs & _ & Ha & Hb). rewrite Hi in E1. injection E1 as <-.
  apply in_flat_map. exists p. split; [now apply nth_error_In with i|].
  unfold shown in Hs. injection Hs as Hx Hy _ _ _. unfold coordinates in *. rewrite Ha, Hb, Hx, Hy in Hf.
  assert (forall h, In f (match spot p h with At x y => [x; y] | Colocated => [] end) -> In f [px p; py p] \/ In f (match h with At x y => [x; y] | Colocated => [] end)) as Sp by (intros [x y|]; cbn; tauto).
  rewrite !in_app_iff in *. destruct Hf as [Hf|[Hf|Hf]]; [now left| |].
  - destruct (pptype q); try destruct Hf. apply Sp in Hf. tauto.
  - destruct (pptype p); try destruct Hf. apply Sp in Hf. tauto.
Qed.
Lemma restored_no_minus (h g' : glif PD PL) : no_minus_zero h -> ~ In [] (contours h) -> glyph_restored h g' -> no_minus_zero g'.
Proof.
  intros Hz Hne (_ & _ & _ & Ra & Rg & Rc & Ri & _ & _ & Ro).
  assert (forall i, In i (numbers h) -> i <> IFloat (S754_zero true)) as N by (intros i Hi ->; exact (Hz Hi)). clear Hz.
  assert (forall A B (R : A -> B -> Prop) l m y, Forall2 R l m -> In y m -> exists x, In x l /\ R x y) as F2.
  { intros A B R l m y F. induction F as [|x z l m Hxz _ IH]; [intros []|]. intros [<-|Hy]; [exists x; split; [now left|exact Hxz]|]. destruct (IH Hy) as (x0 & X1 & X2). exists x0. split; [now right|exact X2]. }
  assert (forall l m, Forall2 same_number l m -> forall i, In i l -> exists j, In j m /\ same_number i j) as FS.
  { intros l m F. induction F as [|x z l m Hxz _ IH]; [intros i []|]. intros i [<-|Hy]; [exists z; split; [now left|exact Hxz]|]. destruct (IH i Hy) as (x0 & X1 & X2). exists x0. split; [now right|exact X2]. }
  unfold numbers in N. unfold no_minus_zero, numbers. rewrite !in_app_iff, !in_flat_map.
  intros [(a & Ha & Hi)|[(l & Hl & Hi)|[(c & Hc & Hi)|[(c & Hc & Hi)|Hi]]]].
  - destruct (F2 _ _ _ _ _ a Ra Ha) as (a0 & Ha0 & E1 & E2 & _). cbn in Hi. rewrite E1, E2 in Hi.
    eapply (N (IFloat (S754_zero true))); [|reflexivity]. rewrite !in_app_iff, !in_flat_map. left. exists a0. split; [exact Ha0|]. cbn. tauto.
  - destruct (F2 _ _ _ _ _ l Rg Hl) as (l0 & Hl0 & _ & _ & E1 & _ & E2 & _).
    assert (Forall2 same_number (gl_angle l :: numbers_of_color (gl_color l)) (gl_angle l0 :: numbers_of_color (gl_color l0))) as F.
    { constructor; [exact E1|]. unfold same_color in E2. destruct (gl_color l), (gl_color l0); try contradiction; [exact E2|constructor]. }
    destruct (FS _ _ F _ Hi) as (j & Hj & Hs). refine (same_not_minus _ _ Hs (N j _) eq_refl). rewrite !in_app_iff, !in_flat_map. right; left. eauto.
  - destruct (F2 _ _ _ _ _ c Rc Hc) as (c0 & Hc0 & _ & E & _). destruct (FS _ _ E _ Hi) as (j & Hj & Hs). refine (same_not_minus _ _ Hs (N j _) eq_refl).
    rewrite !in_app_iff, !in_flat_map. right; right; left. eauto.
  - destruct (F2 _ _ _ _ _ c Ri Hc) as (c0 & Hc0 & _ & E & _). destruct (FS _ _ E _ Hi) as (j & Hj & Hs). refine (same_not_minus _ _ Hs (N j _) eq_refl).
    rewrite !in_app_iff, !in_flat_map. right; right; right; left. eauto.
  - apply in_map_iff in Hi as (f & X & Hf). injection X as ->. apply in_flat_map in Hf as (p & Hp & Hf). apply in_concat in Hp as (c & Hc & Hp).
    destruct (F2 _ _ _ _ _ c Ro Hc) as (c0 & Hc0 & R1 & R2).
    assert (In (S754_zero true) (flat_map coordinates c0)) as K.
    { assert (In (S754_zero true) (flat_map coordinates c)) as Kc by (apply in_flat_map; eauto).
      destruct c0 as [|p0 t0].
      - contradiction.
      - destruct (ptype_eqb_spec (pptype p0) Curve) as [E|E].
        + destruct (R2 p0 t0 eq_refl E) as (c1 & (x & m & E1 & E2) & R). rewrite E1. apply (stored_coordinates _ _ R) in Kc. rewrite E2 in Kc.
          rewrite flat_map_app, in_app_iff. cbn [flat_map] in *. rewrite app_nil_r. rewrite in_app_iff in Kc. tauto.
        + apply (stored_coordinates _ _ (R1 p0 t0 eq_refl E)). exact Kc. }
    apply in_flat_map in K as (p1 & Hp1 & K). apply (N (IFloat (S754_zero true))); [|reflexivity]. rewrite !in_app_iff, !in_flat_map. right; right; right; right.
    apply in_map. apply in_flat_map. exists p1. split; [|exact K]. apply in_concat. eauto.
Qed.
Lemma flat_map_plus {A} (f : A -> A) (k : A -> list iof) l : (forall x, k (f x) = map plus_number (k x)) -> flat_map k (map f l) = map plus_number (flat_map k l).
Proof. intros H. induction l as [|x l IH]; [reflexivity|]. cbn [map flat_map]. now rewrite map_app, H, IH. Qed.
Lemma free_plus (g : glif PD PL) : free_numbers (plus_zeros g) = map plus_number (free_numbers g).
Proof.
  unfold free_numbers. cbn [plus_zeros g_guidelines g_components cs_vec g_images]. rewrite !map_app. f_equal; [|f_equal]; apply flat_map_plus; intros x.
  - cbn [plus_guideline gl_angle gl_color map]. f_equal. destruct (gl_color x); reflexivity.
  - apply members_plus.
  - apply members_plus.
Qed.
Lemma plus_settled ped root (g : glif PD PL) : read_element rust_num pd0 P ped root = Ok g -> forall i, In i (free_numbers (plus_zeros g)) -> settled rust_num i.
Proof.
  intros H i Hi. rewrite free_plus in Hi. apply in_map_iff in Hi as (j & <- & Hj). apply (opened_proper pd0 P ped root g H) in Hj.
  apply rust_settled, proper_ok; destruct j as [z|f]; cbn [plus_number proper] in *; try easy.
  - now destruct f.
  - intros X. injection X as X. now apply plus_not_minus in X.
Qed.
End Rust.

(** ** Contours written out in full *)
Lemma storable_plus {PD} (c : list (point PD)) : storable c -> storable (map plus_point c).
Proof.
  intros H i p q Hp Hq. rewrite map_length in Hq. rewrite nth_error_map in Hp, Hq.
  destruct (nth_error c i) as [p0|] eqn:E; [|discriminate]. destruct (nth_error c (next_of (List.length c) i)) as [q0|] eqn:E'; [|discriminate].
  injection Hp as <-. injection Hq as <-. destruct (H i p0 q0 E E') as (A & B & C).
  cbn [plus_point pdata pa pb pptype]. split; [exact A|]. rewrite <- B, <- C. destruct (pa p0), (pb p0); cbn [plus_handle]; repeat split; try discriminate; try tauto.
Qed.
Lemma kept_plus {PD} L ce (c c' : contour PD) : complete_contour ce -> read_from_element L ce c -> contour_restored (map plus_point c) c' ->
  kept_whole (map plus_point c) c'.
Proof.
  intros Hcomp Hr [R1 R2]. pose proof (storable_plus c (complete_storable L ce c Hcomp Hr)) as Hs.
  destruct c as [|p t]; [now destruct Hr|]. exists (plus_point p), (map plus_point t). split; [reflexivity|]. split; intros Hp.
  - apply storable_exact; [exact Hs|]. exact (R1 _ _ eq_refl Hp).
  - destruct (R2 _ _ eq_refl Hp) as (c1 & H1 & H2). pose proof (storable_earlier _ c1 H1 Hs) as Hs1. now rewrite (storable_exact c1 c' Hs1 H2).
Qed.
