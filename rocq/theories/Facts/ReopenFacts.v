(** When what was saved makes opening it panic. *)
Require Import Coq.Strings.String Coq.Lists.List Coq.Arith.Arith Coq.NArith.NArith Coq.ZArith.ZArith Coq.Bool.Bool Coq.Floats.SpecFloat Coq.micromega.Lia Coq.Sorting.Permutation.
Require Import Verif.Model.Base Verif.Model.Text Verif.Model.Float Verif.Model.Num Verif.Model.RustNum Verif.Model.Point Verif.Model.Contour
  Verif.Model.Create Verif.Model.Conv Verif.Model.Strings Verif.Model.Names Verif.Model.Pedantry Verif.Model.Color Verif.Model.Xml
  Verif.Model.Parts Verif.Model.Read Verif.Model.Write
  Verif.Spec.TextSpec Verif.Spec.NumSpec Verif.Spec.OutlineSpec Verif.Spec.GlyphSpec Verif.Spec.DocumentSpec Verif.Spec.OpenSpec Verif.Spec.RestSpec Verif.Spec.ZeroSpec Verif.Spec.ReopenSpec
  Verif.Facts.TextFacts Verif.Facts.RustNumFacts Verif.Facts.CreateFacts Verif.Facts.ConvFacts Verif.Facts.ConvFacts Verif.Facts.XmlFacts Verif.Facts.GlyphFacts Verif.Facts.DocumentFacts Verif.Facts.WrittenFacts Verif.Facts.OpenFacts Verif.Facts.AgainFacts
  Verif.Facts.ZeroFacts Verif.Facts.RestFacts.
Import ListNotations.
Local Open Scope string_scope.
Local Open Scope list_scope.

(** Every number is written as a text that can be read. *)
Lemma always_readable f : exists i, rust_iof_read (rust_f32_show f) = Some i.
Proof.
  unfold rust_iof_read. destruct (parse_i32 (rust_f32_show f)) as [z|]; [eauto|].
  assert (exists g, rust_f32_read (rust_f32_show f) = Some g) as (g & ->); [|eexists; reflexivity].
  destruct f as [s|s| |s m e].
  - destruct s; eexists; reflexivity.
  - destruct s; eexists; reflexivity.
  - eexists; reflexivity.
  - assert (exists M k, show_abs s m e = show_scaled M k) as (M & k & E).
    { unfold show_abs. destruct (exact_decimal m e) as [M0 k0]. destruct (find _ (seq 1 9)) as [n|]; [|eauto].
      destruct (round_decimal n (M0, k0)) as [M k]. eauto. }
    unfold rust_f32_show. rewrite E. pose proof (read_show_scaled s M k) as Hr. destruct (show_scaled_head M k) as (c & t & E' & Hc). rewrite E' in *.
    eexists. destruct s; cbn [app]; [exact Hr|]. apply is_digit_iff in Hc. unfold rust_f32_read. destruct c as [|p]; [exact Hr|].
    do 6 (destruct p as [p|p|]; try exact Hr; try lia).
Qed.

Lemma number_written L g e : point_written L g e -> get e "x" = Some (iof_show L (gx g)) /\ get e "y" = Some (iof_show L (gy g)).
Proof.
  intros [H _]. unfold attributes in H. unfold get. set (l := flat_map _ _) in H.
  assert (forall v, In (lit "x", v) l -> v = iof_show L (gx g)) as Hx.
  { intros v. unfold l. cbn [flat_map fst snd]. rewrite !in_app_iff.
    destruct (type_text (gptype g)) as [s|], (gname g) as [n|], (gsmooth g); cbn; intuition (try congruence; try discriminate). }
  assert (forall v, In (lit "y", v) l -> v = iof_show L (gy g)) as Hy.
  { intros v. unfold l. cbn [flat_map fst snd]. rewrite !in_app_iff.
    destruct (type_text (gptype g)) as [s|], (gname g) as [n|], (gsmooth g); cbn; intuition (try congruence; try discriminate). }
  assert (forall k v, In (k, v) l -> exists v', attr_get k (eattrs e) = Some v' /\ In (k, v') l) as K.
  { intros k v Hi. destruct (attr_in_get k (eattrs e) v) as (v' & E); [eapply Permutation_in; [symmetry; exact H|exact Hi]|].
    exists v'. split; [exact E|]. apply attr_get_in in E. eapply Permutation_in; eassumption. }
  destruct (K (lit "x") (iof_show L (gx g))) as (vx & Ex & Ix); [unfold l; cbn; tauto|].
  destruct (K (lit "y") (iof_show L (gy g))) as (vy & Ey & Iy); [unfold l; cbn; tauto|].
  rewrite Ex, Ey, (Hx vx Ix), (Hy vy Iy). now split.
Qed.

Definition any_number (i : iof) : Prop := exists f, i = IFloat f.
Lemma written_readable g e : point_written rust_num g e -> any_number (gx g) -> any_number (gy g) -> exists g', read_point rust_num e = Ok g'.
Proof.
  intros H (x & Ex) (y & Ey). destruct (number_written rust_num g e H) as [Hx Hy]. unfold read_point. rewrite Hx, Hy, Ex, Ey. cbn [ok_or bind].
  cbn [rust_num iof_read iof_show rust_iof_show]. destruct (always_readable x) as (ix & ->), (always_readable y) as (iy & ->). cbn [ok_or bind].
  rewrite ptype_of_str_valid. eauto.
Qed.
Lemma point_number {PD} dbg f (c : contour PD) gps g : into_glifpoints rust_num dbg f c = Some (Ok gps) -> In g gps -> any_number (gx g) /\ any_number (gy g).
Proof.
  intros H Hg. destruct (into_glifpoints_in rust_num dbg f c gps g H Hg) as (p & _ & [->|(w & ->)]); [split; eexists; reflexivity|].
  unfold gp_from_handle. destruct (handle_or_colocated _ _ _ _); split; eexists; reflexivity.
Qed.

Lemma rotate_some f : forall l k, rotate_to_oncurve f l = Some (Ok k) -> k <> [].
Proof.
  induction f as [|f IH]; intros [|g l] k H; cbn [rotate_to_oncurve] in H; try discriminate.
  - destruct (ptype_eqb _ _); [discriminate|]. injection H as <-. discriminate.
  - destruct (ptype_eqb _ _); [eapply IH; exact H|]. injection H as <-. discriminate.
Qed.
Lemma listed_some {PD} dbg f (c : contour PD) gps : into_glifpoints rust_num dbg f c = Some (Ok gps) -> gps <> [].
Proof.
  unfold into_glifpoints. destruct c as [|p c]; [discriminate|]. destruct (cleanup_offcurves dbg _) as [k| |]; try discriminate. apply rotate_some.
Qed.

(** Whether a contour can be read depends on the types of its points. *)
Lemma unreadable_types gc gc' : map gptype gc = map gptype gc' -> unreadable gc -> unreadable gc'.
Proof.
  intros E [->|(g & t & -> & Hg & h & Hh & Eh)].
  - symmetry in E. apply map_eq_nil in E. now left.
  - right. destruct gc' as [|g' t']; [discriminate|]. injection E as E1 E2. exists g', t'. split; [reflexivity|]. rewrite <- E1. split; [exact Hg|].
    apply (in_map gptype) in Hh. rewrite E2 in Hh. apply in_map_iff in Hh as (h' & E3 & H'). exists h'. split; [exact H'|congruence].
Qed.

Section Reopen.
Context {PD PL : Type} (pd0 : PD) (P : plistlib PL) (dbg : bool).
Local Notation L := rust_num.

(** The points listed for a contour that was read: their types exist in files, they are a contour that
    cannot be read exactly if the contour was one-sided, and one starting with a `qcurve` point only if it
    was such a one. *)
Lemma listed_again ce (c : contour PD) f gps : read_from_element L ce c -> into_glifpoints L dbg (S f) c = Some (Ok gps) ->
  gps <> [] /\ (forall x, In x gps -> gptype x <> Undefined /\ gptype x <> QClose) /\ (unreadable gps <-> one_sided ce) /\
  (forall h m, gps = h :: m -> gptype h = QCurve -> starts_quadratic ce).
Proof.
  intros (Hne & gc & Hp & Hc) Hw. destruct gc as [|g t]; [discriminate Hc|].
  assert (forall x, In x (g :: t) -> gptype x <> Undefined /\ gptype x <> QClose) as Hall.
  { clear - Hp. induction Hp as [|e x l m H _ IH]; [intros ? []|]. intros y [<-|Hy]; [exact (proj1 (says_type L e x H))|auto]. }
  destruct (named "point" ce) as [|p0 tl] eqn:En; inversion Hp as [|? ? ? ? H1 H2]; subst.
  assert (point_says L (last tl p0) (last t g)) as Hl.
  { clear - H1 H2. revert p0 g H1. induction H2 as [|e x l m H _ IH]; intros p0 g H1; [exact H1|].
    rewrite !last_cons_default. now apply IH. }
  assert (forall e x, point_says L e x -> (get e "type" = Some (lit "qcurve") <-> gptype x = QCurve)) as Hq.
  { intros e x (_ & _ & H & _). split; intros E; rewrite E in H; [|now inversion H]. eapply type_named_inj; [exact H|constructor]. }
  assert (one_sided ce <-> gptype g = QCurve /\ gptype (last t g) <> QCurve) as Hone.
  { pose proof (Hq _ _ H1) as Q1. pose proof (Hq _ _ Hl) as Q2. split.
    - intros (f' & tl' & E & E1 & E2). rewrite En in E. injection E as <- <-. split; [now apply Q1|]. intros X. now apply E2, Q2.
    - intros [E1 E2]. exists p0, tl. split; [exact En|]. split; [now apply Q1|]. intros X. now apply E2, Q2. }
  assert (gptype g = QCurve -> starts_quadratic ce) as Hstart by (intros E; exists p0, tl; split; [exact En|now apply (Hq _ _ H1)]).
  assert (gptype g = QCurve \/ gptype g <> QCurve) as [Hg|Hg] by (destruct (gptype g); (now left) || (right; discriminate)).
  - destruct (quad_again L dbg f g t c gps Hg Hall Hc Hw) as (h & m & -> & Eh & Ho & Hq' & Hn). split; [discriminate|]. split; [|split].
    + intros x Hx. destruct (into_glifpoints_in L dbg _ c _ x Hw Hx) as (q & Hq2 & [-> | (w & ->)]).
      * rewrite (read_quadratic L g t (last t g) (or_introl Hg) eq_refl) in Hc. injection Hc as <-. destruct (offcurve (last t g)) eqn:Eo2.
        -- rewrite Eh in Ho. unfold offcurve in Eo2. destruct (gptype (last t g)); congruence || discriminate.
        -- rewrite app_nil_r in Hq2. change (In q (with_implied (half (PD:=PD) L) (g :: t))) in Hq2.
           apply with_implied_in in Hq2 as [(g1 & X1 & ->)|Hx2]; [exact (Hall g1 X1)|cbn; rewrite Hx2; split; discriminate].
      * unfold gp_from_handle. destruct (handle_or_colocated q w _ _); split; discriminate.
    + destruct (quad_second L f dbg g t c (h :: m) Hg Hall Hc Hw) as [A B].
      rewrite Hone, <- (contour_panic (PD:=PD) L). split.
      * intros X. split; [exact Hg|]. intros E. destruct (B E) as (c' & E' & _). congruence.
      * intros [_ X]. exact (A X).
    + intros h' m' _ _. now apply Hstart.
  - assert (cubic_contour (PD:=PD) (g :: t) = Ok c) as Hc'.
    { unfold contour_of_glif in Hc. destruct (Hall g (or_introl eq_refl)) as [A B].
      destruct (gptype g); try congruence; injection Hc as <-; now destruct Hne. }
    apply cubic_contour_types in Hc'.
    assert (forall x, In x c -> exists y, In y (g :: t) /\ pptype x = gptype y /\ on_type y = true) as Hty.
    { intros x Hx. apply (in_map pptype) in Hx. rewrite Hc' in Hx.
      assert (In (pptype x) (map gptype (filter on_type (g :: t)))) as Hx'.
      { destruct (map gptype (filter on_type (g :: t))) as [|[] [|? ?]]; try exact Hx. destruct Hx. }
      apply in_map_iff in Hx' as (y & E & Hy). apply filter_In in Hy as [Hy Hy']. exists y. auto. }
    assert (forall x, In x gps -> gptype x = OffCurve \/ gptype x = Move \/ gptype x = Line \/ gptype x = Curve) as Hx.
    { intros x Hx. destruct (into_glifpoints_in L dbg _ c _ x Hw Hx) as (q & Hq2 & [-> | (w & ->)]).
      - destruct (Hty q Hq2) as (y & _ & E & Hy). cbn. rewrite E. unfold on_type in Hy. destruct (gptype y); auto; discriminate.
      - unfold gp_from_handle. destruct (handle_or_colocated q w _ _); now left. }
    assert (gps <> []) as Hnil.
    { exact (listed_some dbg (S f) c gps Hw). }
    split; [exact Hnil|]. split; [|split].
    + intros x Hi. destruct (Hx x Hi) as [->|[->|[->| ->]]]; split; discriminate.
    + rewrite Hone. split; [|intros [X _]; contradiction]. intros [X|(h & m & -> & _ & y & Hy & Ey)]; [contradiction|].
      exfalso. destruct (Hx y (or_intror Hy)) as [X|[X|[X|X]]]; congruence.
    + intros h m -> E. exfalso. destruct (Hx h (or_introl eq_refl)) as [X|[X|[X|X]]]; congruence.
Qed.

(** One contour, written and read. *)
Lemma point_again ce ce2 (c : contour PD) : read_from_element L ce c -> contour_written L dbg c ce2 ->
  exists gc2, mapM (read_point L) (named "point" ce2) = Ok gc2 /\ gc2 <> [] /\ (unreadable gc2 <-> one_sided ce) /\
    (starts_quadratic ce2 -> starts_quadratic ce).
Proof.
  intros Hr (_ & _ & gps & Hg & Hp). replace (3 * List.length c + 3) with (S (3 * List.length c + 2)) in Hg by lia.
  destruct (listed_again ce c _ gps Hr Hg) as (Hne & Hv & Hu & Hs).
  assert (exists gc2, mapM (read_point L) (named "point" ce2) = Ok gc2 /\ map gptype gc2 = map gptype gps /\ Forall2 (point_says L) (named "point" ce2) gc2) as (gc2 & E1 & E2 & E3).
  { assert (forall x, In x gps -> any_number (gx x) /\ any_number (gy x)) as Hn by (intros x Hx; exact (point_number dbg _ c gps x Hg Hx)).
    clear - Hp Hn Hv. induction Hp as [|x y l l' A B IH]; [exists []; repeat split; constructor|].
    destruct IH as (gc2 & I1 & I2 & I3); [intros z Hz; apply Hv; now right|intros z Hz; apply Hn; now right|].
    destruct (Hn x (or_introl eq_refl)) as [N1 N2]. destruct (written_readable x y A N1 N2) as (x' & Ex). destruct (Hv x (or_introl eq_refl)) as [V1 V2].
    exists (x' :: gc2). cbn [mapM]. rewrite Ex. cbn [bind]. rewrite I1. cbn [bind]. split; [reflexivity|]. apply read_point_says in Ex. split; [|now constructor].
    cbn [map]. f_equal; [|exact I2]. destruct Ex as (_ & _ & Ex & _). eapply type_named_inj; [exact Ex|]. exact (written_type L x y A V1 V2). }
  exists gc2. split; [exact E1|]. split; [|split].
  - intros ->. destruct gps; [now destruct Hne|discriminate].
  - rewrite <- Hu. split; apply unreadable_types; congruence.
  - intros (f & t & Ef & Et). rewrite Ef in E3. inversion E3 as [|? x2 ? t2 A B]; subst. destruct gps as [|h m]; [discriminate|]. injection E2 as Eh _.
    apply (Hs h m eq_refl). rewrite <- Eh. destruct A as (_ & _ & A & _). rewrite Et in A. eapply type_named_inj; [exact A|constructor].
Qed.

Lemma Forall2_in_l {A B} (R : A -> B -> Prop) l m x : Forall2 R l m -> In x l -> exists y, In y m /\ R x y.
Proof. induction 1 as [|a b l m H _ IH]; [intros []|]. intros [<-|Hx]; [exists b; split; [now left|exact H]|]. destruct (IH Hx) as (y & H1 & H2). exists y. split; [now right|exact H2]. Qed.
Lemma Forall2_in_r {A B} (R : A -> B -> Prop) l m y : Forall2 R l m -> In y m -> exists x, In x l /\ R x y.
Proof. induction 1 as [|a b l m H _ IH]; [intros []|]. intros [<-|Hx]; [exists a; split; [now left|exact H]|]. destruct (IH Hx) as (x & H1 & H2). exists x. split; [now right|exact H2]. Qed.

Lemma reopened_any ces (g : glif PD PL) e : (forall c, In c (contours g) -> exists ce, In ce ces /\ read_from_element L ce c) ->
  (forall ce, In ce ces -> not_read L ce \/ exists c, In c (contours g) /\ read_from_element L ce c) ->
  glyph_ok L P (without_contours (plus_zeros g)) -> lib_ok P (g_lib g) -> glif_xml L P dbg g = Ok e ->
  ((exists ce, In ce (ces) /\ one_sided ce) /\ read_element L pd0 P pedantry_default e = Panic) \/
  (~ (exists ce, In ce (ces) /\ one_sided ce) /\
   exists g' : glif PD PL, read_element L pd0 P pedantry_default e = Ok g' /\ lib_ok P (g_lib g') /\ lib_restored (g_lib g) (g_lib g') /\
     ((exists ce2, In ce2 (contours_in e) /\ starts_quadratic ce2) -> exists ce, In ce (ces) /\ starts_quadratic ce)).
Proof.
  intros C1 C2 Hok Hl He.
  destruct (written_like L P dbg g e He) as (e2 & He2 & W1 & W2 & W3 & W4 & W5).
  assert (forall f, f32_of_iof (iof_of_f32 L f) = f) as HL by reflexivity.
  destruct (glyph_xml_restored L pd0 P HL dbg pedantry_default _ Hok eq_refl eq_refl) as (e3 & h & He3 & Hh & Hres & _).
  assert (read_element L pd0 P pedantry_default e2 = Ok h) as Hh2.
  { change (without_contours (plus_zeros g)) with (plus_zeros (without_contours g)) in He3.
    destruct (rust_glyph_plus pd0 P dbg pedantry_default (without_contours g)) as [(a & b & A & B & R)|[[A _]|(er & A & _)]]; congruence. }
  pose proof (read_like L pd0 P pedantry_default e e2 h W1 W2 W3 W4 W5 Hh2) as Hread. rewrite Hread.
  assert (Forall2 (contour_written L dbg) (contours g) (contours_in e)) as Hw.
  { apply glif_xml_written in He as (_ & _ & _ & _ & _ & _ & Hw & _). unfold outline_written in Hw.
    change (match g_outline g with Some cs => cs | None => [] end) with (contours g) in Hw. cbv zeta in Hw.
    destruct Hw as [(Hw & _ & Eo)|(_ & oe & Eo & _ & _ & Hw & _)]; unfold contours_in; rewrite Eo; [|exact Hw].
    change (contours g = []) in Hw. rewrite Hw. constructor. }
  assert (forall ce, In ce (ces) -> starts_quadratic ce -> exists c, In c (contours g) /\ read_from_element L ce c) as C3.
  { intros ce Hce (f & t & Ef & Et). destruct (C2 ce Hce) as [(gc & A & B)|X]; [exfalso|exact X]. rewrite Ef in A. inversion A as [|? x ? m A1 A2]; subst.
    destruct A1 as (_ & _ & A1 & _). rewrite Et in A1. assert (gptype x = QCurve) as Hg by (eapply type_named_inj; [exact A1|constructor]).
    destruct B as [B|(g' & t' & Eg & B)]; [discriminate|]. injection Eg as <- <-. rewrite Hg in B. destruct B as [[B|B]|[B _]]; discriminate. }
  assert (exists cs, mapM (fun c => mapM (read_point L) (named "point" c)) (contours_in e) = Ok cs /\ filter nonempty cs = cs /\
    Forall2 (fun c gc2 => forall ce, read_from_element L ce c -> (unreadable gc2 <-> one_sided ce)) (contours g) cs) as (cs & M1 & M2 & M3).
  { clear - Hw C1. induction Hw as [|c ce2 l l' A B IH]; [exists []; repeat split; constructor|].
    destruct IH as (cs & I1 & I2 & I3); [intros x Hx; apply C1; now right|].
    destruct (C1 c (or_introl eq_refl)) as (ce & Hce & Hr). destruct (point_again ce ce2 c Hr A) as (gc2 & E1 & E2 & _ & _).
    exists (gc2 :: cs). cbn [mapM]. rewrite E1. cbn [bind]. rewrite I1. cbn [bind filter]. split; [reflexivity|]. split.
    - destruct gc2; [now destruct E2|]. cbn [nonempty]. now rewrite I2.
    - constructor; [|exact I3]. intros ce' Hr'. destruct (point_again ce' ce2 c Hr' A) as (gc3 & F1 & _ & F2 & _). congruence. }
  rewrite M1. cbn [bind]. rewrite M2. destruct (outline_panic (PD:=PD) L cs) as [O1 O2].
  destruct (outline_of_glif (PD:=PD) L cs) as [o|er|] eqn:Eo; [right|exfalso; exact (O2 er eq_refl)|left].
  - split.
    + intros (ce & Hce & Ho). destruct (C3 ce Hce) as (c & Hc & Hr); [destruct Ho as (f & t & A & B & _); now exists f, t|].
      destruct (Forall2_in_l _ _ _ c M3 Hc) as (gc2 & Hin & Hu). assert (Ok o = Panic :> res (outline PD)) as X; [|discriminate].
      apply O1. exists gc2. split; [exact Hin|]. now apply (Hu ce Hr).
    + cbn [bind]. eexists. split; [reflexivity|]. cbn [g_lib]. split.
      * destruct Hres as (_ & _ & _ & _ & _ & _ & _ & _ & R9 & _). cbn [without_contours plus_zeros g_lib] in R9. clear - R9 Hl.
        unfold lib_restored, lib_ok in *. destruct (g_lib g) as [|d|x], (g_lib h) as [|d'|x']; try tauto; [now subst|now rewrite <- R9].
      * split; [now destruct Hres as (_ & _ & _ & _ & _ & _ & _ & _ & R9 & _)|].
        intros (ce2 & Hce2 & Hs). destruct (Forall2_in_r _ _ _ ce2 Hw Hce2) as (c & Hc & A). destruct (C1 c Hc) as (ce & Hce & Hr).
        exists ce. split; [exact Hce|]. destruct (point_again ce ce2 c Hr A) as (_ & _ & _ & _ & X). auto.
  - split; [|reflexivity]. destruct (proj1 O1 eq_refl) as (gc2 & Hin & Hu). destruct (Forall2_in_r _ _ _ gc2 M3 Hin) as (c & Hc & K).
    destruct (C1 c Hc) as (ce & Hce & Hr). exists ce. split; [exact Hce|]. now apply (K ce Hr).
Qed.

Lemma reopened ped root (g : glif PD PL) e : read_element L pd0 P ped root = Ok g -> lib_ok P (g_lib g) -> glif_xml L P dbg g = Ok e ->
  ((exists ce, In ce (contours_in root) /\ one_sided ce) /\ read_element L pd0 P pedantry_default e = Panic) \/
  (~ (exists ce, In ce (contours_in root) /\ one_sided ce) /\
   exists g' : glif PD PL, read_element L pd0 P pedantry_default e = Ok g' /\ lib_ok P (g_lib g') /\ lib_restored (g_lib g) (g_lib g') /\
     ((exists ce2, In ce2 (contours_in e) /\ starts_quadratic ce2) -> exists ce, In ce (contours_in root) /\ starts_quadratic ce)).
Proof.
  intros H Hl. destruct (contours_read L pd0 P ped root g H) as [C1 C2]. exact (reopened_any (contours_in root) g e C1 C2 (opened_rest pd0 P ped root g H Hl) Hl).
Qed.
End Reopen.
