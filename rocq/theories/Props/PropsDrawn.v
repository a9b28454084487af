(** Property C114: what is drawn after saving, and after reversing and saving. *)
Require Import Coq.Strings.String Coq.Lists.List Coq.Arith.Arith Coq.Bool.Bool Coq.ZArith.ZArith Coq.micromega.Lia Coq.Floats.SpecFloat.
Require Import Verif.Model.Base Verif.Model.Text Verif.Model.Float Verif.Model.Num Verif.Model.RustNum Verif.Model.Point Verif.Model.Contour
  Verif.Model.Reverse Verif.Model.Refigure Verif.Model.Strings Verif.Model.Names Verif.Model.Pedantry Verif.Model.Xml Verif.Model.Parts Verif.Model.Read Verif.Model.Write
  Verif.Spec.ContourSpec Verif.Spec.OutlineSpec Verif.Spec.GlyphSpec Verif.Spec.DrawnSpec
  Verif.Facts.ContourFacts Verif.Facts.DrawnFacts Verif.Props.PropsContour Verif.Props.PropsGlyph Verif.Props.PropsPen.
Import ListNotations.
Local Open Scope nat_scope.

(** C114: saving and opening keeps what a contour draws exactly if its lines have no handles that say otherwise. *)
Theorem C114_saved_exact : forall (L : numlib) (PD PL : Type) (pd0 : PD) (P : plistlib PL) (dbg : bool) (g : glif PD PL),
  (forall f, f32_of_iof (iof_of_f32 L f) = f) -> glyph_ok L P g ->
  exists e g', glif_xml L P dbg g = Ok e /\ read_element L pd0 P pedantry_default e = Ok g' /\
    Forall2 (fun c c' => same_drawing c (drawing c) (drawing c') <-> forall s, In s (segments c) -> sg_kind s = Line -> straight s)
      (contours g) (contours g').
Proof.
  intros L PD PL pd0 P dbg g HL Hok. destruct (C24_glyph_restored L PD PL pd0 P dbg g HL Hok) as (e & g' & H1 & H2 & H3).
  exists e, g'. split; [exact H1|]. split; [exact H2|].
  destruct H3 as (_ & _ & _ & _ & _ & _ & _ & _ & _ & H3). destruct Hok as (_ & _ & _ & _ & _ & _ & _ & Hok).
  induction H3 as [|c c' l l' Hc _ IH]; [constructor|]. inversion_clear Hok as [|? ? [Hf _] Hok']. constructor; [|now apply IH].
  rewrite (saved_same_exact c c' Hf Hc). split; intros H s Hs Hk; apply H; auto; [congruence|].
  destruct (segment_kinds c s Hf Hs); [assumption|contradiction].
Qed.
Print Assumptions C114_saved_exact.

Lemma reversed_glyph_ok (L : numlib) (PD PL : Type) (P : plistlib PL) (dbg : bool) (g : glif PD PL) o :
  glyph_ok L P g -> outline_to_reversed dbg (contours g) = Ok o -> glyph_ok L P (with_outline g o).
Proof.
  intros (H1 & H2 & H3 & H4 & H5 & H6 & H7 & H8) Ho. repeat (split; [assumption|]). unfold contours at 1. cbn [with_outline g_outline].
  apply C84_reversed_each in Ho. induction Ho as [|c c' l l' Hr _ IH]; [constructor|]. inversion_clear H8 as [|? ? [Hf Hl] H8'].
  constructor; [|now apply IH]. split; [eapply reversed_form; eauto|]. intros p' f Hp' Hin.
  destruct (reversed_points dbg c c' p' Hr Hp') as (p & Hp & E1 & E2 & E3 & E4). apply (Hl p f Hp). unfold coordinates in *. rewrite E1, E2, E3, E4 in Hin.
  rewrite !in_app_iff in *. tauto.
Qed.

(** C114: reversing and saving draws the contour backwards exactly if no curve comes after a line. *)
Theorem C114_reversed_saved_exact : forall (L : numlib) (PD PL : Type) (pd0 : PD) (P : plistlib PL) (dbg : bool) (g : glif PD PL) (o : outline PD),
  (forall f, f32_of_iof (iof_of_f32 L f) = f) -> glyph_ok L P g -> outline_to_reversed dbg (contours g) = Ok o ->
  exists e g', glif_xml L P dbg (with_outline g o) = Ok e /\ read_element L pd0 P pedantry_default e = Ok g' /\
    Forall2 (fun c c' => same_drawing c (drawing_backwards c) (drawing c') <-> ~ curve_after_line c) (contours g) (contours g').
Proof.
  intros L PD PL pd0 P dbg g o HL Hok Ho. pose proof (reversed_glyph_ok L PD PL P dbg g o Hok Ho) as Hok2.
  destruct (C24_glyph_restored L PD PL pd0 P dbg _ HL Hok2) as (e & g' & H1 & H2 & H3). exists e, g'. split; [exact H1|]. split; [exact H2|].
  destruct H3 as (_ & _ & _ & _ & _ & _ & _ & _ & _ & H3). unfold contours at 1 in H3. cbn [with_outline g_outline] in H3.
  destruct Hok as (_ & _ & _ & _ & _ & _ & _ & Hok). apply C84_reversed_each in Ho. revert H3. generalize (contours g'). clear - Hok Ho.
  induction Ho as [|c c1 l l1 Hr _ IH]; intros l' H3; inversion H3 as [|? c' ? l'' Hc Hcs]; subst; [constructor|].
  inversion_clear Hok as [|? ? [Hf _] Hok']. constructor; [|now apply IH].
  pose proof (reversed_form dbg c c1 Hf Hr) as Hf1. rewrite <- (reversed_drawing dbg c c1 Hr).
  rewrite (same_drawing_opened c c1) by exact (reversed_keeps dbg c c1 Hr). rewrite (saved_same_exact c1 c' Hf1 Hc), <- (reversed_bad_exact dbg c c1 Hf Hr). split.
  - intros H (s & Hs & Hk & Hn). apply Hn. now apply H.
  - intros H s Hs Hk. destruct (straight_dec s) as [X|X]; [exact X|]. exfalso. apply H. eauto.
Qed.
Print Assumptions C114_reversed_saved_exact.

(** C114: with the types of the points computed anew in between, the contours are drawn backwards. *)
Theorem C114_reversed_refigured_saved : forall (L : numlib) (PD PL : Type) (pd0 : PD) (P : plistlib PL) (dbg : bool) (g : glif PD PL) (o : outline PD),
  (forall f, f32_of_iof (iof_of_f32 L f) = f) -> glyph_ok L P g ->
  (forall c, In c (contours g) -> 2 <= List.length c /\ handles_away c) -> outline_to_reversed dbg (contours g) = Ok o ->
  exists o' e g', refigure_outline o = Ok o' /\ glif_xml L P dbg (with_outline g o') = Ok e /\
    read_element L pd0 P pedantry_default e = Ok g' /\
    Forall2 (fun c c' => same_drawing c (drawing_backwards c) (drawing c')) (contours g) (contours g').
Proof.
  intros L PD PL pd0 P dbg g o HL Hok Haw Ho. pose proof (reversed_glyph_ok L PD PL P dbg g o Hok Ho) as Hok2.
  destruct (C84_refigured PD o) as (o' & R1 & R2). apply C84_reversed_each in Ho.
  assert (Forall2 (fun c c2 => cubic_contour_form c2 /\ (opened c <-> opened c2) /\ drawing c2 = drawing_backwards c /\
            forall s, In s (segments c2) -> sg_kind s <> Curve -> straight s) (contours g) o' /\ Forall (contour_ok L) o') as [HA HB].
  { destruct Hok2 as (_ & _ & _ & _ & _ & _ & _ & Hok2). unfold contours at 1 in Hok2. cbn [with_outline g_outline] in Hok2. clear R1 Hok. revert o' R2.
    induction Ho as [|c c1 l l1 Hr _ IH]; intros o' R2; inversion R2 as [|? c2 ? l2 Hf2 Hfs]; subst; [split; constructor|].
    inversion_clear Hok2 as [|? ? [Hf1 Hl1] Hok']. destruct (IH (fun x Hx => Haw x (or_intror Hx)) Hok' l2 Hfs) as [IH1 IH2].
    destruct (Haw c (or_introl eq_refl)) as [Hn Ha]. pose proof (reversed_away dbg c c1 Hr Ha) as Ha1.
    assert (2 <= List.length c1) as Hn1 by (rewrite (reversed_length dbg c c1 Hr); exact Hn).
    destruct (refigured_all c1 c2 Hn1 Ha1 Hf2) as (F1 & F2 & F3 & F4). split; constructor; try assumption.
    - split; [exact F1|]. split; [rewrite (reversed_keeps dbg c c1 Hr); exact F2|]. split; [|exact F4].
      rewrite (refigured_drawing c1 c2 Hn1 Ha1 Hf2). now apply reversed_drawing with dbg.
    - split; [exact F1|]. intros p f Hp Hin. apply In_nth_error in Hp as (i & Hi). apply (f_equal (fun l => nth_error l i)) in F3. rewrite !nth_error_map, Hi in F3.
      destruct (nth_error c1 i) as [q|] eqn:Hq; [|discriminate]. apply (Hl1 q f (nth_error_In _ _ Hq)). cbn in F3. unfold untyped in F3.
      assert (coordinates q = coordinates p) as E by (unfold coordinates; injection F3 as -> -> -> -> _ _ _; reflexivity). now rewrite E. }
  assert (glyph_ok L P (with_outline g o')) as Hok3 by (destruct Hok as (Q1 & Q2 & Q3 & Q4 & Q5 & Q6 & Q7 & _); repeat (split; [assumption|]); exact HB).
  destruct (C24_glyph_restored L PD PL pd0 P dbg _ HL Hok3) as (e & g' & H1 & H2 & H3). exists o', e, g'. split; [exact R1|]. split; [exact H1|]. split; [exact H2|].
  destruct H3 as (_ & _ & _ & _ & _ & _ & _ & _ & _ & H3). unfold contours at 1 in H3. cbn [with_outline g_outline] in H3. revert H3. generalize (contours g'). clear - HA.
  induction HA as [|c c2 l l2 (F1 & F2 & F3 & F4) _ IH]; intros l' H3; inversion H3 as [|? c' ? l'' Hc Hcs]; subst; [constructor|].
  constructor; [|now apply IH]. rewrite (same_drawing_opened c c2) by exact F2. rewrite <- F3. now apply (saved_same_exact c2 c' F1 Hc).
Qed.
Print Assumptions C114_reversed_refigured_saved.

(** A glyph with one contour of a curve and two lines. *)
Definition ex_leaf : glif unit unit := mkGlif (Some [ex_mixed]) [] components_default [] [] None [] (lit "leaf") None None LNone.
Lemma ex_leaf_ok : glyph_ok rust_num no_plist ex_leaf.
Proof.
  split; [discriminate|]. do 6 (split; [constructor|]). cbn. constructor; [|constructor]. split.
  - do 2 eexists. split; [reflexivity|]. split; [right; left; reflexivity|]. constructor; [right; reflexivity|]. constructor; [left; reflexivity|]. constructor.
  - intros p f Hp Hf. apply (proj2 (proj2 C24_rust_numbers)). cbn in Hp. destruct Hp as [<-|[<-|[<-|[]]]]; cbn in Hf;
      repeat (destruct Hf as [<-|Hf]; [split; [vm_compute; reflexivity|discriminate]|]); destruct Hf.
Qed.
Lemma ex_mixed_bad : curve_after_line ex_mixed.
Proof.
  exists (seg_between (pt 50 80 Colocated Colocated Line) (pt 0 0 (at_ 10 0) Colocated Line)), (seg_between (pt 0 0 (at_ 10 0) Colocated Line) (pt 100 0 Colocated (at_ 90 0) Curve)).
  split; [exists 2; split; [reflexivity|split; [reflexivity|intros (?&?&?&[= <- _ _]&H); discriminate]]|]. split; [reflexivity|]. intros H. vm_compute in H. discriminate.
Qed.

(** C114 as stated is false: a contour whose handles and types agree, and which is stored as it is, is drawn
    differently after reversing and saving. *)
Theorem C114_reversed_saved_refuted : exists (g : glif unit unit) (o : outline unit) e g' c c',
  glyph_ok rust_num no_plist g /\ contours g = [c] /\ kinds_agree (segments c) /\ outline_to_reversed true [c] = Ok o /\
  glif_xml rust_num no_plist true (with_outline g o) = Ok e /\ read_element rust_num tt no_plist pedantry_default e = Ok g' /\
  contours g' = [c'] /\ ~ same_drawing c (drawing_backwards c) (drawing c').
Proof.
  destruct (to_reversed true ex_mixed) as [c1| |] eqn:E; [|discriminate|discriminate].
  assert (outline_to_reversed true [ex_mixed] = Ok [c1]) as Ho by (unfold outline_to_reversed; cbn [mapM]; now rewrite E).
  destruct (C114_reversed_saved_exact rust_num unit unit tt no_plist true ex_leaf [c1] (proj1 C24_rust_numbers) ex_leaf_ok Ho) as (e & g' & H1 & H2 & H3).
  change (contours ex_leaf) with [ex_mixed] in H3. inversion H3 as [|? c' ? l' Hx Hy Ex Ey]; subst. inversion Hy; subst.
  exists ex_leaf, [c1], e, g', ex_mixed, c'. split; [exact ex_leaf_ok|]. split; [reflexivity|]. split.
  - intros s Hs. cbn in Hs. destruct Hs as [<-|[<-|[<-|[]]]]; reflexivity.
  - split; [exact Ho|]. split; [exact H1|]. split; [exact H2|]. split; [now symmetry|]. intros X. apply Hx in X. now apply X, ex_mixed_bad.
Qed.
Print Assumptions C114_reversed_saved_refuted.

(** The hypotheses are met: the same contour may be reversed, given its types and saved; a contour of curves only may be
    reversed and saved. *)
Example C114_case : handles_away ex_mixed /\ 2 <= List.length ex_mixed /\ ~ curve_after_line ex_closed /\
  (forall s, In s (segments ex_mixed) -> sg_kind s = Line -> straight s) /\
  exists c1 c2, to_reversed true ex_mixed = Ok c1 /\ refigure c1 = Ok c2 /\ map pptype c1 = [Line; Line; Curve] /\ map pptype c2 = [Curve; Line; Line].
Proof.
  split; [|split; [cbn; lia|split; [|split]]].
  - intros p Hp. cbn in Hp. destruct Hp as [<-|[<-|[<-|[]]]]; split; intros (x & y & E & F); try discriminate E; injection E as <- <-; vm_compute in F; destruct F as [F F']; discriminate.
  - intros (s & s' & (i & H1 & _ & _) & Hk & _). apply nth_error_In in H1. cbn in H1. destruct H1 as [<-|[<-|[<-|[]]]]; discriminate Hk.
  - intros s Hs. cbn in Hs. destruct Hs as [<-|[<-|[<-|[]]]]; intros Hk; try discriminate Hk; reflexivity.
  - do 2 eexists. split; [reflexivity|]. split; [vm_compute; reflexivity|]. split; reflexivity.
Qed.
