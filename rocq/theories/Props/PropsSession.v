(** Property C117: histories of edits, and saving after them. *)
Require Import Coq.Strings.String Coq.Lists.List Coq.Arith.Arith Coq.Bool.Bool Coq.ZArith.ZArith Coq.micromega.Lia Coq.Floats.SpecFloat.
Require Import Verif.Model.Base Verif.Model.Text Verif.Model.Float Verif.Model.Num Verif.Model.RustNum Verif.Model.Point Verif.Model.Contour
  Verif.Model.Reverse Verif.Model.Refigure Verif.Model.Strings Verif.Model.Names Verif.Model.Pedantry Verif.Model.Xml Verif.Model.Parts Verif.Model.Read Verif.Model.Write
  Verif.Spec.ContourSpec Verif.Spec.OutlineSpec Verif.Spec.GlyphSpec Verif.Spec.DrawnSpec Verif.Spec.SessionSpec
  Verif.Facts.ContourFacts Verif.Facts.DrawnFacts Verif.Facts.SessionFacts Verif.Props.PropsContour Verif.Props.PropsGlyph Verif.Props.PropsPen Verif.Props.PropsOpen Verif.Props.PropsDrawn.
Require Verif.Spec.EditSpec.
Import ListNotations.
Local Open Scope nat_scope.

Lemma first_state {PD PL} (g : glif PD PL) : Forall cubic_contour_form (contours g) ->
  forall i c, nth_error (contours g) i = Some c -> state False c.
Proof. intros H i c Hc. left. split; [|tauto]. rewrite Forall_forall in H. exact (H c (nth_error_In _ _ Hc)). Qed.

(** C117: a history of edits panics exactly if, in a debug build, an open contour is reversed that has then a handle beyond its ends. *)
Theorem C117_edits_exact : forall (PD PL : Type) (dbg : bool) (g : glif PD PL) (es : list session_edit),
  Forall cubic_contour_form (contours g) -> Forall (in_place (contours g)) es ->
  (session dbg (contours g) es = Panic <->
    dbg = true /\ exists before e after o i c, es = before ++ e :: after /\ session dbg (contours g) before = Ok o /\
      nth_error o i = Some c /\ reverses i e /\ opened c /\ ~ clean_ends c) /\
  (forall x, session dbg (contours g) es <> Err x).
Proof. intros PD PL dbg g es Hf Hin. exact (session_outcome dbg es (fun _ => False) (contours g) (first_state g Hf) Hin). Qed.
Print Assumptions C117_edits_exact.

(** C117: so in a release build none does, nor in a debug build if no handle is placed. *)
Theorem C117_edits_safe : forall (PD PL : Type) (dbg : bool) (g : glif PD PL) (es : list session_edit),
  Forall cubic_contour_form (contours g) -> Forall (in_place (contours g)) es ->
  dbg = false \/ ((forall c, In c (contours g) -> opened c -> clean_ends c) /\ Forall places_no_handle es) ->
  exists o, session dbg (contours g) es = Ok o.
Proof.
  intros PD PL dbg g es Hf Hin Hd. destruct (C117_edits_exact PD PL dbg g es Hf Hin) as [A B].
  destruct (session dbg (contours g) es) as [o|x|] eqn:E; [eauto|now destruct (B x)|]. exfalso.
  destruct (proj1 A eq_refl) as (D & b & e & a & o & i & c & E1 & E2 & E3 & _ & Ho & Hn). destruct Hd as [Hd|[Hc Hp]]; [congruence|]. apply Hn.
  apply (session_clean dbg b (fun _ => False) (contours g) o (first_state g Hf)) with (i := i); [| |exact E2|exact E3|exact Ho].
  - intros k d Hk. exact (Hc d (nth_error_In _ _ Hk)).
  - rewrite E1 in Hp. now apply Forall_app in Hp as [Hp _].
Qed.
Print Assumptions C117_edits_safe.

(** C117: the contours and their points are still those there were; open contours are open, closed ones closed. *)
Theorem C117_shape : forall (PD PL : Type) (dbg : bool) (g : glif PD PL) (es : list session_edit) (o : outline PD),
  Forall cubic_contour_form (contours g) -> session dbg (contours g) es = Ok o ->
  List.length o = List.length (contours g) /\
  forall i c, nth_error (contours g) i = Some c ->
    exists c', nth_error o i = Some c' /\ List.length c' = List.length c /\ (opened c <-> opened c').
Proof.
  intros PD PL dbg g es o Hf H. destruct (session_state dbg es (fun _ => False) (contours g) o (first_state g Hf) H) as [A B]. split; [exact A|].
  intros i c Hc. destruct (B i c Hc) as (c' & H1 & _ & H2 & H3). eauto.
Qed.
Print Assumptions C117_shape.

(** C117: saving then panics exactly if the types of a contour of one point have been refigured. *)
Theorem C117_saved_exact : forall (L : numlib) (PD PL : Type) (P : plistlib PL) (dbg dbg' : bool) (g : glif PD PL) (es : list session_edit) (o : outline PD),
  Forall cubic_contour_form (contours g) -> session dbg (contours g) es = Ok o ->
  (glif_xml L P dbg' (with_outline g o) = Panic <->
    exists i p e, nth_error (contours g) i = Some [p] /\ In e es /\ refigures i e) /\
  (glif_xml L P dbg' (with_outline g o) <> Panic -> exists x, glif_xml L P dbg' (with_outline g o) = Ok x).
Proof.
  intros L PD PL P dbg dbg' g es o Hf H. destruct (session_state dbg es (fun _ => False) (contours g) o (first_state g Hf) H) as [Hl Hs].
  destruct (C22_glyph_exact L PD PL P dbg' (with_outline g o)) as [A B]. split; [|exact B]. rewrite A. clear A B. unfold contours at 1. cbn [with_outline g_outline]. split.
  - intros (c' & Hc' & Hbad). apply In_nth_error in Hc' as (i & Hi). destruct (at_some (contours g) i) as (c & Hc); [rewrite <- Hl; apply nth_error_Some; intros X; rewrite X in Hi; discriminate|].
    destruct (Hs i c Hc) as (c'' & H1 & H2 & H3 & _). rewrite Hi in H1. injection H1 as <-. destruct H2 as [[(p & t & -> & Hp & Ht) _]|[[[]|(e & He & Hr)] (p & -> & _)]].
    + exfalso. destruct Hbad as [Hb|(q & Hq & Hb)].
      * specialize (Hb p (or_introl eq_refl)). destruct Hp as [[Hp _]|[Hp|Hp]]; congruence.
      * destruct Hq as [<-|Hq]; [destruct Hp as [[Hp _]|[Hp|Hp]]; destruct Hb; congruence|]. rewrite Forall_forall in Ht. destruct (Ht q Hq), Hb; congruence.
    + destruct c as [|p0 [|]]; try discriminate. exists i, p0, e. tauto.
  - intros (i & p & e & Hi & He & Hr). destruct (Hs i [p] Hi) as (c' & H1 & H2 & H3 & _). exists c'. split; [exact (nth_error_In _ _ H1)|]. left.
    destruct H2 as [[_ H2]|[_ (p' & -> & Hp')]]; [exfalso; apply (H2 H3); right; exists e; tauto|]. intros q [<-|[]]. exact Hp'.
Qed.
Print Assumptions C117_saved_exact.

(** C117: otherwise, if its numbers can be read, the edited glyph is what is opened again. *)
Theorem C117_reopened : forall (L : numlib) (PD PL : Type) (pd0 : PD) (P : plistlib PL) (dbg dbg' : bool) (g : glif PD PL) (es : list session_edit) (o : outline PD),
  (forall f, f32_of_iof (iof_of_f32 L f) = f) -> glyph_ok L P g -> session dbg (contours g) es = Ok o ->
  (forall i p e, nth_error (contours g) i = Some [p] -> In e es -> ~ refigures i e) ->
  (forall c p f, In c o -> In p c -> In f (coordinates p) -> legible L (iof_of_f32 L f)) ->
  exists x g', glif_xml L P dbg' (with_outline g o) = Ok x /\ read_element L pd0 P pedantry_default x = Ok g' /\ glyph_restored (with_outline g o) g'.
Proof.
  intros L PD PL pd0 P dbg dbg' g es o HL Hok H Hone Hnum. apply C24_glyph_restored; [exact HL|].
  destruct Hok as (H1 & H2 & H3 & H4 & H5 & H6 & H7 & H8).
  assert (Forall cubic_contour_form (contours g)) as Hf by (eapply Forall_impl; [|exact H8]; intros c [X _]; exact X).
  destruct (session_state dbg es (fun _ => False) (contours g) o (first_state g Hf) H) as [Hl Hs].
  do 7 (split; [assumption|]). unfold contours. cbn [with_outline g_outline]. apply Forall_forall. intros c' Hc'. split; [|now intros p f; apply Hnum].
  apply In_nth_error in Hc' as (i & Hi). destruct (at_some (contours g) i) as (c & Hc); [rewrite <- Hl; apply nth_error_Some; intros X; rewrite X in Hi; discriminate|].
  destruct (Hs i c Hc) as (c'' & K1 & K2 & K3 & _). rewrite Hi in K1. injection K1 as <-. destruct K2 as [[K2 _]|[[[]|(e & He & Hr)] (p & -> & _)]]; [exact K2|].
  destruct c as [|p0 [|]]; try discriminate. now destruct (Hone i p0 e Hc He).
Qed.
Print Assumptions C117_reopened.

Definition ex_dot : glif unit unit :=
  mkGlif (Some [[pt 10 20 Colocated Colocated Line]]) [] (mkComponents (lit "dot") [] []) [] [] None [] (lit "dot") None None LNone.

(** C117 without the exception is false: a glyph opened from a file, whose types are refigured, cannot be saved. *)
Theorem C117_one_point_refuted : exists x (g : glif unit unit) o,
  read_element rust_num tt no_plist pedantry_default x = Ok g /\ session true (contours g) [RefigureAll] = Ok o /\
  glif_xml rust_num no_plist true g = Ok x /\ forall dbg, glif_xml rust_num no_plist dbg (with_outline g o) = Panic.
Proof.
  assert (exists x, glif_xml rust_num no_plist true ex_dot = Ok x) as (x & Hx).
  { apply C22_glyph_exact. intros X. apply C22_glyph_exact in X as (c & [<-|[]] & [X|(p & [<-|[]] & [X|X])]); try discriminate. specialize (X _ (or_introl eq_refl)). discriminate. }
  exists x, ex_dot. eexists.
  split; [|split; [reflexivity|split; [exact Hx|]]].
  - vm_compute in Hx. injection Hx as <-. vm_compute. reflexivity.
  - intros dbg. apply C22_glyph_exact. eexists. split; [left; reflexivity|]. left. intros p [<-|[]]. reflexivity.
Qed.
Print Assumptions C117_one_point_refuted.

(** C117: and a handle placed beyond the end makes reversing panic in a debug build. *)
Theorem C117_debug_refuted : exists (g : glif unit unit) es, Forall cubic_contour_form (contours g) /\ Forall (in_place (contours g)) es /\
  session true (contours g) es = Panic /\ exists o, session false (contours g) es = Ok o.
Proof.
  exists (with_outline ex_leaf [ex_open]), [ChangeAt 0 2 (EditSpec.ChHandleAt WA (f32_of_Z 1) (f32_of_Z 2)); ReverseOne 0]. split; [|split; [|split]].
  - constructor; [|constructor]. do 2 eexists. split; [reflexivity|]. split; [left; split; [reflexivity|discriminate]|]. repeat constructor; right; reflexivity.
  - constructor; [exists ex_open; split; [reflexivity|cbn; lia]|]. constructor; [cbn; lia|constructor].
  - reflexivity.
  - eexists. reflexivity.
Qed.
Print Assumptions C117_debug_refuted.

(** The hypotheses are met: a glyph opened from a file is moved, reversed, rounded and refigured. *)
Definition ex_history : list session_edit :=
  [ChangeAt 0 1 (EditSpec.ChMove (f32_of_Z 70) (f32_of_Z 3)); ReverseAll; RoundAll; ChangeAt 0 0 (EditSpec.ChColocate WA); RefigureOne 0; ReverseOne 0].
Example C117_case : glyph_ok rust_num no_plist ex_leaf /\ Forall (in_place (contours ex_leaf)) ex_history /\ Forall places_no_handle ex_history /\
  (forall i p e, nth_error (contours ex_leaf) i = Some [p] -> In e ex_history -> ~ refigures i e) /\
  exists o, session true (contours ex_leaf) ex_history = Ok o /\ forall c p f, In c o -> In p c -> In f (coordinates p) -> legible rust_num (iof_of_f32 rust_num f).
Proof.
  split; [exact ex_leaf_ok|]. split; [|split; [|split]].
  - unfold ex_history. assert (forall j ch, j < 3 -> in_place (contours ex_leaf) (ChangeAt 0 j ch)) as A by (intros j ch Hj; exists ex_mixed; split; [reflexivity|exact Hj]).
    constructor; [apply A; lia|]. constructor; [exact I|]. constructor; [exact I|]. constructor; [apply A; lia|]. constructor; [cbn; lia|]. constructor; [cbn; lia|constructor].
  - repeat constructor.
  - intros [|[|i]] p e H; discriminate.
  - eexists. split; [vm_compute; reflexivity|]. intros c p f [<-|[]] Hp Hf. apply (proj2 (proj2 C24_rust_numbers)). cbn in Hp. destruct Hp as [<-|[<-|[<-|[]]]]; cbn in Hf;
      repeat (destruct Hf as [<-|Hf]; [split; [vm_compute; reflexivity|discriminate]|]); destruct Hf.
Qed.
