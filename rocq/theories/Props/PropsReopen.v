(** C98: which documents can be opened again after saving, and how often. *)
Require Import Coq.Strings.String Coq.Lists.List Coq.Arith.Arith Coq.micromega.Lia.
Require Import Verif.Model.Base Verif.Model.Text Verif.Model.Num Verif.Model.RustNum Verif.Model.Point Verif.Model.Names Verif.Model.Pedantry Verif.Model.Xml
  Verif.Model.Parts Verif.Model.Read Verif.Model.Write
  Verif.Spec.OutlineSpec Verif.Spec.GlyphSpec Verif.Spec.DocumentSpec Verif.Spec.OpenSpec Verif.Spec.ReopenSpec
  Verif.Facts.OpenFacts Verif.Facts.ReopenFacts Verif.Props.PropsGlyph Verif.Props.PropsDocument Verif.Props.PropsOpen Verif.Props.PropsRest.
Import ListNotations.
Local Open Scope string_scope.
Local Open Scope list_scope.

(** C98: a document was opened and the glyph saved: opening what was saved panics exactly if a contour
    of the document starts with a `qcurve` point and does not end with one, and gives a glyph otherwise. *)
Theorem C98_which_can_be_reopened : forall (PD PL : Type) (pd0 : PD) (P : plistlib PL) (dbg : bool) (ped : pedantry)
  (root e : element) (g : glif PD PL),
  read_element rust_num pd0 P ped root = Ok g -> lib_ok P (g_lib g) -> glif_xml rust_num P dbg g = Ok e ->
  (read_element rust_num pd0 P pedantry_default e = Panic <-> exists ce, In ce (contours_in root) /\ one_sided ce) /\
  (~ (exists ce, In ce (contours_in root) /\ one_sided ce) -> exists g', read_element rust_num pd0 P pedantry_default e = Ok g').
Proof.
  intros PD PL pd0 P dbg ped root e g H Hl He. destruct (reopened pd0 P dbg ped root g e H Hl He) as [[A B]|[A (g' & B & _)]].
  - split; [tauto|]. intros X. contradiction.
  - split; [|eauto]. split; [intros X; congruence|]. intros X. contradiction.
Qed.
Print Assumptions C98_which_can_be_reopened.

(** C98: a document that can be opened and saved once can be opened and saved any number of times exactly
    if no contour starts with a `qcurve` point, and not even twice otherwise. *)
Theorem C98_how_often : forall (PD PL : Type) (pd0 : PD) (P : plistlib PL) (dbg : bool) (root : element) (g : glif PD PL),
  read_element rust_num pd0 P pedantry_default root = Ok g -> lib_ok P (g_lib g) ->
  (survives pd0 P dbg 1 root <-> ~ exists ce, In ce (contours_in root) /\ loose_end ce) /\
  (forall n, 2 <= n -> (survives pd0 P dbg n root <-> ~ exists ce, In ce (contours_in root) /\ starts_quadratic ce)).
Proof.
  intros PD PL pd0 P dbg root g H Hl. split.
  - destruct (which_saved rust_num pd0 P dbg pedantry_default root g H) as [[A B]|[A (e & B)]]; (split; [intros (g0 & e0 & H0 & E0 & _)|intros N]).
    + congruence.
    + contradiction.
    + exact A.
    + exists g, e. cbn [survives]. auto.
  - intros n Hn. split.
    + destruct n as [|[|n]]; try lia. intros (g0 & e & H0 & He & g' & e' & H' & He' & _) X.
      pose proof (quadratic_once rust_num pd0 P pedantry_default pedantry_default dbg dbg root g0 g' e H0 X He H'). congruence.
    + intros N. clear Hn. revert root g H Hl N. induction n as [|n IH]; intros root g H Hl N; [exact I|].
      destruct (which_saved rust_num pd0 P dbg pedantry_default root g H) as [[A _]|[_ (e & B)]].
      { exfalso. apply N. destruct A as (ce & Hce & f & t & E & E' & _). exists ce. split; [exact Hce|]. now exists f, t. }
      exists g, e. split; [exact H|]. split; [exact B|].
      destruct (reopened pd0 P dbg pedantry_default root g e H Hl B) as [[A _]|[_ (g' & H' & Hl' & _ & Hs)]].
      { exfalso. apply N. destruct A as (ce & Hce & f & t & E & E' & _). exists ce. split; [exact Hce|]. now exists f, t. }
      apply (IH e g' H' Hl'). intros X. now apply N, Hs.
Qed.
Print Assumptions C98_how_often.

(** With a line at its end a quadratic contour is saved, and opening what was saved panics. *)
Example C98_reopen_case : exists (g : glif unit unit) (e : element),
  read_element rust_num tt no_plist pedantry_default (ex_quadratic "line") = Ok g /\ lib_ok no_plist (g_lib g) /\ glif_xml rust_num no_plist false g = Ok e /\
  (exists ce, In ce (contours_in (ex_quadratic "line")) /\ one_sided ce) /\
  ~ survives (PL := unit) tt no_plist false 2 (ex_quadratic "line") /\ survives (PL := unit) tt no_plist false 1 (ex_quadratic "line").
Proof.
  destruct (read_element rust_num tt no_plist pedantry_default (ex_quadratic "line")) as [g| |] eqn:E; [|vm_compute in E; discriminate|vm_compute in E; discriminate].
  assert (lib_ok no_plist (g_lib g)) as Hl by (vm_compute in E; injection E as <-; exact I).
  destruct (C98_how_often _ _ tt no_plist false _ g E Hl) as [H1 H2].
  assert (exists ce, In ce (contours_in (ex_quadratic "line")) /\ one_sided ce) as Hone.
  { eexists. split; [left; reflexivity|]. do 2 eexists. split; [reflexivity|]. split; [reflexivity|]. vm_compute. discriminate. }
  exists g. vm_compute in E. injection E as <-. eexists. split; [reflexivity|]. split; [exact I|]. split; [vm_compute; reflexivity|]. split; [exact Hone|]. split.
  - rewrite (H2 2 (le_n 2)). intros X. apply X. destruct Hone as (ce & Hce & f & t & A & B & _). exists ce. split; [exact Hce|]. now exists f, t.
  - apply H1. intros (ce & [<-|[]] & f & t & A & B & C). cbn in A. injection A as <- <-. inversion C as [| | | |o K]. apply (K "line"); [right; left; reflexivity|reflexivity].
Qed.
(** A contour with a `move` in its middle is not one of lines and curves only, and does no harm. *)
Definition ex_moves : element :=
  el "glyph" [("name", "A"); ("format", "2")]
    [el "outline" [] [el "contour" [] [el "point" [("x", "0"); ("y", "-0.0"); ("type", "line")] []; el "point" [("x", "5"); ("y", "7"); ("type", "move")] [];
       el "point" [("x", "9"); ("y", "9"); ("type", "curve")] []]]].
Example C98_forever_case : (forall n, survives (PL := unit) tt no_plist true n ex_moves) /\ ~ (forall ce, In ce (contours_in ex_moves) -> plain_contour ce).
Proof.
  destruct (read_element rust_num tt no_plist pedantry_default ex_moves) as [g| |] eqn:E; [|vm_compute in E; discriminate|vm_compute in E; discriminate].
  assert (lib_ok (PL := unit) no_plist (g_lib g)) as Hl by (vm_compute in E; injection E as <-; exact I).
  destruct (C98_how_often _ _ tt no_plist true _ g E Hl) as [H1 H2]. split.
  - assert (~ exists ce, In ce (contours_in ex_moves) /\ starts_quadratic ce) as N by (intros (ce & [<-|[]] & f & t & A & B); cbn in A; injection A as <- <-; discriminate B).
    intros [|[|n]]; [exact I| |apply H2; [lia|exact N]]. apply H1. intros (ce & Hce & f & t & A & B & _). apply N. exists ce. split; [exact Hce|]. now exists f, t.
  - intros X. specialize (X _ (or_introl eq_refl) [_] _ _ eq_refl). destruct X as [_ X]. apply X; [discriminate|reflexivity].
Qed.
