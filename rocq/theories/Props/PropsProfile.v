(** Property C113: debug and release builds. *)
Require Import Coq.Strings.String Coq.Lists.List Coq.NArith.NArith Coq.ZArith.ZArith Coq.Bool.Bool Coq.micromega.Lia.
Require Import Verif.Model.Base Verif.Model.Text Verif.Model.Float Verif.Model.Num Verif.Model.RustNum Verif.Model.Point Verif.Model.Contour Verif.Model.Reverse Verif.Model.Conv Verif.Model.Builders Verif.Model.Pedantry Verif.Model.Xml Verif.Model.Parts Verif.Model.Read Verif.Model.Write Verif.Model.Skia Verif.Model.Interop
  Verif.Spec.ContourSpec Verif.Spec.GlyphSpec Verif.Spec.SkiaSpec Verif.Spec.ProfileSpec Verif.Facts.CreateFacts Verif.Facts.OpenFacts Verif.Facts.ProfileFacts
  Verif.Props.PropsContour Verif.Props.PropsSkia Verif.Props.PropsGlyph Verif.Props.PropsOpen.
Import ListNotations.

(** C113: whatever a debug build does without panicking the release build does as well: writing
    points, contours and glyphs, reversing, conversion from skia, making points, handles by name. *)
Theorem C113_asserts : forall (L : numlib) (PD PL : Type) (P : plistlib PL),
  (forall fuel (c : contour PD), into_glifpoints L true fuel c = Some Panic \/ into_glifpoints L true fuel c = into_glifpoints L false fuel c) /\
  (forall g, asserts (gp_xml L true g) (gp_xml L false g)) /\
  (forall c : contour PD, asserts (contour_xml L true c) (contour_xml L false c)) /\
  (forall g : glif PD PL, asserts (glif_xml L P true g) (glif_xml L P false g)) /\
  (forall o : outline PD, asserts (outline_to_reversed true o) (outline_to_reversed false o)) /\
  (forall conic p, asserts (from_skia_path (PD := PD) conic true p) (from_skia_path conic false p)) /\
  (forall x y a b sm t n d, asserts (from_fields (PD := PD) true x y a b sm t n d) (from_fields false x y a b sm t n d)) /\
  (forall s, asserts (which_from_str true s) (which_from_str false s)).
Proof.
  intros L PD PL P. split; [apply into_profile|]. split; [apply gp_xml_profile|]. split; [apply contour_xml_profile|]. split; [apply glif_xml_profile|].
  split; [intros o; apply asserts_mapM, reversed_profile|]. split; [apply from_skia_profile|].
  split; [|apply which_str_profile]. intros x y a b sm t n d. unfold from_fields. apply asserts_bind; [|now right]. unfold check_ptype. cbn [andb]. apply asserts_if. now right.
Qed.
Print Assumptions C113_asserts.

(** C113: glyphs are saved alike: the same document, or a panic in both. *)
Theorem C113_saving_alike : forall (L : numlib) (PD PL : Type) (P : plistlib PL) (g : glif PD PL), glif_xml L P true g = glif_xml L P false g.
Proof.
  intros L PD PL P g. destruct (glif_xml_profile L P g) as [E|E]; [|exact E]. rewrite E. symmetry.
  apply (proj1 (C22_glyph_exact L PD PL P false g)). now apply (proj1 (C22_glyph_exact L PD PL P true g)).
Qed.
Print Assumptions C113_saving_alike.

(** C113: so are skia paths made of subpaths, without NaNs. *)
Theorem C113_skia_alike : forall (PD : Type) conic (subs : list subpath), keeps_ends conic -> Forall (proper_sub conic) subs ->
  from_skia_path (PD := PD) conic true (concat (map verbs subs)) = from_skia_path conic false (concat (map verbs subs)).
Proof.
  intros PD conic subs Hk Hp. destruct (from_skia_profile (PD := PD) conic (concat (map verbs subs))) as [E|E]; [|exact E]. rewrite E. symmetry.
  destruct (C59_from_skia_exact PD conic true subs Hk Hp) as [[H _]|[_ (o & X & _)]]; [|congruence].
  destruct (C59_from_skia_exact PD conic false subs Hk Hp) as [[_ H']|[N _]]; [exact H'|contradiction].
Qed.
Print Assumptions C113_skia_alike.

(** C113: an outline is reversed alike, except exactly if it has an open contour with a handle
    beyond one of its ends, and no empty contour: then the debug build panics. *)
Theorem C113_reversing_differs_exactly : forall (PD : Type) (o : outline PD),
  outline_to_reversed true o <> outline_to_reversed false o <-> ((forall c, In c o -> c <> []) /\ exists c, In c o /\ opened c /\ ~ clean_ends c).
Proof.
  intros PD o. unfold outline_to_reversed.
  assert (forall dbg (l : outline PD), (forall c, In c l -> to_reversed dbg c <> Panic) -> exists l', mapM (to_reversed dbg) l = Ok l') as OK.
  { intros dbg l. induction l as [|c l IH]; intros H; [eexists; reflexivity|]. cbn [mapM]. destruct (to_reversed dbg c) as [c'|e|] eqn:E.
    - destruct IH as (l' & El); [intros x Hx; apply H; now right|]. rewrite El. eexists. reflexivity.
    - now destruct (proj2 (C16_reverse_panics_exactly dbg PD c) e).
    - exfalso. now apply (H c (or_introl eq_refl)). }
  assert (forall dbg (l : outline PD), (exists c, In c l /\ to_reversed dbg c = Panic) -> mapM (to_reversed dbg) l = Panic) as PA.
  { intros dbg l. induction l as [|c l IH]; intros (x & Hx & Ex); [destruct Hx|]. cbn [mapM]. destruct (to_reversed dbg c) as [c'|e|] eqn:E; [|now destruct (proj2 (C16_reverse_panics_exactly dbg PD c) e)|reflexivity].
    destruct Hx as [->|Hx]; [congruence|]. rewrite IH by eauto. reflexivity. }
  split.
  - intros H. destruct (asserts_mapM _ _ reversed_profile o) as [E|E]; [|contradiction]. rewrite E in H.
    assert (forall c, In c o -> c <> []) as N.
    { intros c Hc ->. apply H. symmetry. apply PA. exists []. split; [exact Hc|reflexivity]. }
    split; [exact N|]. assert (~ forall c, In c o -> to_reversed true c <> Panic) as X by (intros X; destruct (OK true o X) as (l' & El); congruence).
    assert (forall l : outline PD, (forall c, In c l -> to_reversed true c <> Panic) \/ exists c, In c l /\ to_reversed true c = Panic) as D.
    { clear. induction l as [|c l IH]; [left; intros c []|]. destruct (to_reversed true c) eqn:E; [| |right; exists c; split; [now left|exact E]];
        (destruct IH as [IH|(x & Hx & Ex)]; [left; intros y [<-|Hy]; [congruence|now apply IH]|right; exists x; split; [now right|exact Ex]]). }
    destruct (D o) as [Y|(c & Hc & Ec)]; [contradiction|]. exists c. split; [exact Hc|].
    apply (proj1 (C16_reverse_panics_exactly true PD c)) in Ec as [Ec|(_ & Ec)]; [now destruct (N c Hc)|exact Ec].
  - intros (N & c & Hc & Ho & Hn). destruct (OK false o) as (l' & El).
    { intros x Hx E. apply (proj1 (C16_reverse_panics_exactly false PD x)) in E as [E|(E & _)]; [now apply (N x)|discriminate]. }
    rewrite El, (PA true o); [discriminate|]. exists c. split; [exact Hc|]. apply (proj1 (C16_reverse_panics_exactly true PD c)). right. now split.
Qed.
Print Assumptions C113_reversing_differs_exactly.

(** C113: and files have such contours: an open contour that ends with a control point. *)
Definition trailing_doc : element :=
  let pt x t := NElem (Element (lit "point") (match t with Some t => [(lit "x", lit x); (lit "y", lit "0"); (lit "type", lit t)] | None => [(lit "x", lit x); (lit "y", lit "0")] end) []) in
  Element (lit "glyph") [(lit "name", lit "A"); (lit "format", lit "2")]
    [NElem (Element (lit "outline") [] [NElem (Element (lit "contour") [] [pt "0"%string (Some "move"%string); pt "10"%string (Some "line"%string); pt "20"%string None])])].
Theorem C113_alike_refuted : exists (g : glif unit unit) o o', read_element rust_num tt no_plist pedantry_default trailing_doc = Ok g /\
  g_outline g = Some o /\ outline_to_reversed false o = Ok o' /\ outline_to_reversed true o = Panic.
Proof. eexists. eexists. eexists. split; [vm_compute; reflexivity|]. split; [reflexivity|]. split; vm_compute; reflexivity. Qed.
Print Assumptions C113_alike_refuted.

(** Cases: a glyph that is written, one that panics, an outline that is reversed in both. *)
Example C113_case : (exists e, glif_xml rust_num no_plist true ex_glyph = Ok e) /\
  glif_xml rust_num no_plist true (mkGlif (Some [[]]) [] components_default [] [] None [] [] None None LNone : glif unit unit) = Panic /\
  (exists o', outline_to_reversed true [ex_contour] = Ok o').
Proof. split; [eexists; vm_compute; reflexivity|]. split; [vm_compute; reflexivity|]. eexists. vm_compute. reflexivity. Qed.
