(** C120: saving a glyph whose components were flattened. *)
Require Import Coq.Strings.String Coq.Lists.List Coq.NArith.NArith Coq.ZArith.ZArith Coq.Floats.SpecFloat Coq.Relations.Relation_Operators.
Require Import Verif.Model.Base Verif.Model.Text Verif.Model.Float Verif.Model.Num Verif.Model.RustNum Verif.Model.Point Verif.Model.Contour
  Verif.Model.Names Verif.Model.Pedantry Verif.Model.Color Verif.Model.Xml Verif.Model.Parts Verif.Model.Read Verif.Model.Write Verif.Model.Component
  Verif.Spec.OutlineSpec Verif.Spec.GlyphSpec Verif.Spec.DocumentSpec Verif.Spec.OpenSpec Verif.Spec.ComponentSpec Verif.Spec.RestSpec Verif.Spec.ZeroSpec Verif.Spec.FlatSpec
  Verif.Facts.ComponentFacts Verif.Facts.OpenFacts Verif.Facts.ZeroFacts Verif.Facts.FlatFacts
  Verif.Props.PropsComponent Verif.Props.PropsGlyph Verif.Props.PropsDocument Verif.Props.PropsOpen Verif.Props.PropsZero.
Import ListNotations.
Local Open Scope string_scope.
Local Open Scope list_scope.

Lemma flattened_contours (L : numlib) {PD PL T} (pd0 : PD) (P : plistlib PL) (files : path -> option T) parse fuel rects (g g' : glif PD PL) rs :
  flattened L pd0 P files parse fuel rects g = Some (Ok (g', rs)) ->
  exists ts, Forall2 (resolves (to_component L pd0 P files parse)) (cs_vec (g_components g)) ts /\
    Forall2 (fun x c' => moved (fst x) (snd x) c') (flat_map upper_contours ts) (contours g').
Proof.
  unfold flattened. destruct (build_forest L pd0 P files parse fuel (g_components g)) as [[f| |]|] eqn:E; try discriminate.
  pose proof (flatten_forest_fst f []) as F. destruct (flatten_forest f []) as [o rl]. cbn [fst app] in F. intros H. injection H as <- <-.
  exists f. split; [eapply forest_ok; exact E|]. unfold contours. cbn [g_outline]. subst o. apply places_moved.
Qed.

Lemma flattened_saved (L : numlib) {PD PL T} (pd0 : PD) (P : plistlib PL) (files : path -> option T) parse dbg fuel rects (g g' : glif PD PL) rs :
  flattened L pd0 P files parse fuel rects g = Some (Ok (g', rs)) ->
  (glif_xml L P dbg g' = Panic <->
    exists c, contour_near (to_component L pd0 P files parse) (cs_vec (g_components g)) c /\ unsavable c).
Proof.
  intros H. destruct (flattened_contours L pd0 P files parse fuel rects g g' rs H) as (ts & R & M).
  destruct (C22_glyph_exact L PD PL P dbg g') as [A B]. rewrite A. clear A B H. split.
  - intros (c' & Hc' & Hb).
    assert (exists x, In x (flat_map upper_contours ts) /\ moved (fst x) (snd x) c') as ((ms & c) & Hx & Hm).
    { clear - M Hc'. induction M as [|x y l l' Hxy _ IH]; [destruct Hc'|]. destruct Hc' as [<-|Hc']; [exists x; split; [now left|exact Hxy]|]. destruct (IH Hc') as (z & X & Y). exists z. split; [now right|exact Y]. }
    exists c. split; [apply (placed_near _ _ ts c R); eauto|]. apply (types_unsavable c' c); [|exact Hb]. symmetry. exact (moved_types ms c c' Hm).
  - intros (c & Hn & Hb). apply (placed_near _ _ ts c R) in Hn as (ms & Hn).
    assert (exists c', In c' (contours g') /\ moved ms c c') as (c' & Hc' & Hm).
    { clear - M Hn. induction M as [|x y l l' Hxy _ IH]; [destruct Hn|]. destruct Hn as [->|Hn]; [exists y; split; [now left|exact Hxy]|]. destruct (IH Hn) as (z & X & Y). exists z. split; [now right|exact Y]. }
    exists c'. split; [exact Hc'|]. exact (types_unsavable c c' (moved_types ms c c' Hm) Hb).
Qed.

(** C120: the flattened glyph is saved unless a glyph of the first two levels of components has a
    contour that starts with a `qcurve` point and ends in a control point; then saving panics.  Its own
    contours, deeper components and the matrices make no difference. *)
Theorem C120_saved_exactly : forall (L : numlib) (PD PL T : Type) (pd0 : PD) (P : plistlib PL) (files : path -> option T) (parse : T -> option element)
  (dbg : bool) (fuel : nat) (rects : option (list comp_rect)) (g g' : glif PD PL) (rs : option (list comp_rect)),
  flattened L pd0 P files parse fuel rects g = Some (Ok (g', rs)) ->
  (glif_xml L P dbg g' = Panic <->
    exists r root ce, within_two (to_component L pd0 P files parse) (cs_vec (g_components g)) r /\
      document_of files parse r root /\ In ce (contours_in root) /\ loose_end ce) /\
  (glif_xml L P dbg g' <> Panic -> exists e, glif_xml L P dbg g' = Ok e).
Proof.
  intros L PD PL T pd0 P files parse dbg fuel rects g g' rs H. split; [|exact (proj2 (C22_glyph_exact L PD PL P dbg g'))].
  rewrite (flattened_saved L pd0 P files parse dbg fuel rects g g' rs H). destruct (flattened_contours L pd0 P files parse fuel rects g g' rs H) as (ts & R & _). clear H.
  assert (forall r k root, to_component L pd0 P files parse r = Ok k -> document_of files parse r root ->
    ((exists c, In c (own_contours k) /\ unsavable c) <-> exists ce, In ce (contours_in root) /\ loose_end ce)) as K.
  { intros r k root Hk Hd. destruct (loaded_document L pd0 P files parse r k Hk) as (root' & new & Hd' & Hn & ->). rewrite (document_unique _ _ _ _ _ Hd Hd').
    destruct (C98_which_can_be_saved L PD PL pd0 P dbg _ _ _ Hn) as [A _]. destruct (C22_glyph_exact L PD PL P dbg new) as [B _]. rewrite <- A, B. reflexivity. }
  split.
  - intros (c & Hn & Hb). apply near_two in Hn as (r & k & Hr & Hk & Hc). destruct (loaded_document L pd0 P files parse r k Hk) as (root & _ & Hd & _).
    destruct (proj1 (K r k root Hk Hd)) as (ce & X & Y); [eauto|]. exists r, root, ce. auto.
  - intros (r & root & ce & Hr & Hd & Hce & Hl). destruct (two_loaded _ _ _ r R Hr) as (k & Hk). destruct (proj2 (K r k root Hk Hd)) as (c & X & Y); [eauto|].
    exists c. split; [|exact Y]. apply near_two. exists r, k. auto.
Qed.
Print Assumptions C120_saved_exactly.

Lemma flattened_in_order {PD PL T : Type} (pd0 : PD) (P : plistlib PL) (files : path -> option T) (parse : T -> option element)
  (ped : pedantry) (fn : path) (fuel : nat) (rects : option (list comp_rect)) (g g' : glif PD PL) (rs : option (list comp_rect)) :
  read_from_filename rust_num pd0 P T files parse ped fn = Ok g -> lib_ok P (g_lib g) ->
  (forall r0 r root ce, In r0 (cs_vec (g_components g)) -> reaches (to_component rust_num pd0 P files parse) r0 r ->
     document_of files parse r root -> In ce (contours_in root) -> plain_contour ce) ->
  flattened rust_num pd0 P files parse fuel rects g = Some (Ok (g', rs)) -> glyph_ok rust_num P (plus_zeros g').
Proof.
  intros Hg Hl Hpl H.
  assert (exists root g0, read_element rust_num pd0 P ped root = Ok g0 /\ g_anchors g = g_anchors g0 /\ g_guidelines g = g_guidelines g0 /\ g_images g = g_images g0 /\
    g_width g = g_width g0 /\ g_unicode g = g_unicode g0 /\ g_lib g = g_lib g0) as (root & g0 & R0 & E1 & E2 & E3 & E4 & E5 & E6).
  { unfold read_from_filename in Hg. destruct (files fn); [|discriminate]. cbn [ok_or bind] in Hg. destruct (parse t) as [root|]; [|discriminate]. cbn [ok_or bind] in Hg.
    destruct (read_element rust_num pd0 P ped root) as [g0| |] eqn:E; try discriminate. cbn [bind] in Hg. injection Hg as <-. exists root, g0. repeat split; auto. }
  rewrite E6 in Hl. destruct (opened_rest pd0 P ped root g0 R0 Hl) as (Q1 & Q2 & Q3 & Q4 & _ & Q6 & Q7 & _).
    cbn [without_contours plus_zeros g_width g_unicode g_anchors g_guidelines g_images g_lib] in *.
    destruct (C36_frame rust_num pd0 P files parse fuel rects g g' rs H) as (F1 & F2 & F3 & F4 & F5 & _ & _ & _ & F9 & F10 & _).
    unfold glyph_ok. cbn [plus_zeros g_width g_unicode g_anchors g_guidelines g_images g_lib g_components cs_vec]. rewrite F1, F2, F3, F4, F5, F9, F10, E1, E2, E3, E4, E5, E6.
    do 4 (split; [assumption|]). split; [constructor|]. do 2 (split; [assumption|]).
    destruct (flattened_contours rust_num pd0 P files parse fuel rects g g' rs H) as (ts & R & M).
    assert (contours (plus_zeros g') = map (map plus_point) (contours g')) as -> by (unfold contours; cbn [plus_zeros g_outline]; now destruct (g_outline g')).
    apply Forall_map. apply Forall_forall. intros c' Hc'.
    assert (exists x, In x (flat_map upper_contours ts) /\ moved (fst x) (snd x) c') as ((ms & c) & Hx & Hm).
    { clear - M Hc'. induction M as [|x y l l' Hxy _ IH]; [destruct Hc'|]. destruct Hc' as [<-|Hc']; [exists x; split; [now left|exact Hxy]|]. destruct (IH Hc') as (z & X & Y). exists z. split; [now right|exact Y]. }
    cbn [fst snd] in Hm.
    assert (exists ce, plain_contour ce /\ read_from_element rust_num ce c) as (ce & Hce & Hr).
    { destruct (proj1 (placed_near _ _ ts c R) (ex_intro _ ms Hx)) as (r0 & k0 & Hr0 & Hk0 & [Hin|(r & k & Hr & Hk & Hin)]).
      - destruct (loaded_contours pd0 P files parse r0 k0 c Hk0 Hin) as (rt & ce & D & X & Y). exists ce. split; [|exact Y]. apply (Hpl r0 r0 rt ce); auto. constructor.
      - destruct (loaded_contours pd0 P files parse r k c Hk Hin) as (rt & ce & D & X & Y). exists ce. split; [|exact Y]. apply (Hpl r0 r rt ce); auto.
        apply rt1n_trans with (2 := rt1n_refl _ _ _). exists k0. auto. }
    destruct (contour_is_plain ce c Hce Hr) as [Hf Hv]. split.
    - apply (types_form c); [|exact Hf]. rewrite map_map. cbn [plus_point pptype]. exact (moved_types ms c c' Hm).
    - intros q f Hq Hf'. apply in_map_iff in Hq as (q0 & <- & Hq). rewrite coordinates_plus in Hf'. apply in_map_iff in Hf' as (f0 & <- & Hf').
      apply (plus_legible (IFloat f0)). cbn [proper].
      assert (exists p, In p c /\ moved_point ms p q0) as (p & Hp & Hpm).
      { clear - Hm Hq. induction Hm as [|x y l l' Hxy _ IH]; [destruct Hq|]. destruct Hq as [<-|Hq]; [exists x; split; [now left|exact Hxy]|]. destruct (IH Hq) as (z & X & Y). exists z. split; [now right|exact Y]. }
      exact (moved_coordinates ms p q0 Hpm (fun f => Hv p f Hp) f0 Hf').
Qed.

(** C120: if the glyphs it includes are of lines and cubic curves, the flattened glyph is saved, and
    what is opened then is it, up to the minus signs of zeros; it has no components. *)
Theorem C120_reopened : forall (PD PL T : Type) (pd0 : PD) (P : plistlib PL) (files : path -> option T) (parse : T -> option element)
  (ped : pedantry) (fn : path) (dbg : bool) (fuel : nat) (rects : option (list comp_rect)) (g g' : glif PD PL) (rs : option (list comp_rect)),
  read_from_filename rust_num pd0 P T files parse ped fn = Ok g -> lib_ok P (g_lib g) ->
  (forall r0 r root ce, In r0 (cs_vec (g_components g)) -> reaches (to_component rust_num pd0 P files parse) r0 r ->
     document_of files parse r root -> In ce (contours_in root) -> plain_contour ce) ->
  flattened rust_num pd0 P files parse fuel rects g = Some (Ok (g', rs)) ->
  exists e h, glif_xml rust_num P dbg g' = Ok e /\ read_element rust_num pd0 P pedantry_default e = Ok h /\
    glyph_restored (plus_zeros g') h /\ cs_vec (g_components h) = [].
Proof.
  intros PD PL T pd0 P files parse ped fn dbg fuel rects g g' rs Hg Hl Hpl H.
  pose proof (flattened_in_order pd0 P files parse ped fn fuel rects g g' rs Hg Hl Hpl H) as Hok.
  destruct (C24_glyph_restored rust_num PD PL pd0 P dbg (plus_zeros g') (proj1 C24_rust_numbers) Hok) as (e' & h & E & R & S).
  destruct (rust_glyph_plus pd0 P dbg pedantry_default g') as [(f' & f & F' & F & X)|[[F' _]|(er & F' & _)]]; [|congruence|congruence].
  exists f, h. split; [exact F|]. split; [rewrite <- X; congruence|]. split; [exact S|].
  destruct S as (_ & _ & _ & _ & _ & Sc & _). cbn [plus_zeros g_components cs_vec] in Sc.
  destruct (C36_frame rust_num pd0 P files parse fuel rects g g' rs H) as (_ & _ & _ & _ & _ & _ & _ & _ & _ & F10 & _). rewrite F10 in Sc. now inversion Sc.
Qed.
Print Assumptions C120_reopened.

(** C120: flattening a glyph without components, as a flattened one is, takes all its contours away. *)
Theorem C120_again_empty : forall (L : numlib) (PD PL T : Type) (pd0 : PD) (P : plistlib PL) (files : path -> option T) (parse : T -> option element)
  (fuel : nat) (rects : option (list comp_rect)) (g : glif PD PL),
  cs_vec (g_components g) = [] ->
  exists g' rs, flattened L pd0 P files parse fuel rects g = Some (Ok (g', rs)) /\ contours g' = [].
Proof.
  intros L PD PL T pd0 P files parse fuel rects g H. unfold flattened, build_forest. rewrite H. cbn [build_forest_loop flatten_forest]. eexists _, _. split; reflexivity.
Qed.
Print Assumptions C120_again_empty.

(** The hypotheses are met: `twice` includes `once`, which includes `base`. *)
Lemma font_plain : forall p root ce, font p = Some root -> In ce (contours_in root) -> plain_contour ce.
Proof.
  intros p root ce H Hc.
  assert (ce = Element (lit "contour") [] [PropsComponent.pt "1" "2"; PropsComponent.pt "5" "2"; PropsComponent.pt "5" "7"]) as ->.
  { unfold font in H. destruct p as [|d [|f [|? ?]]]; try discriminate. destruct (negb _); [discriminate|].
    repeat match type of H with (if ?b then _ else _) = _ => destruct b; [injection H as <-; cbn in Hc; repeat destruct Hc as [<-|Hc]; try destruct Hc; try reflexivity|] end. discriminate. }
  apply complete_plain. exists [Line; Line; Line]. split.
  - repeat (apply Forall2_cons; [exact names_line|]). apply Forall2_nil.
  - right; right. exists Line, [Line; Line]. split; [reflexivity|]. split; [discriminate|]. apply a_line, a_line, a_line, no_piece.
Qed.
Example C120_case : exists (g g' : glif unit unit) rs, glyph_of "twice.glif" = Ok g /\ lib_ok nopl (g_lib g) /\
  (forall r0 r root ce, In r0 (cs_vec (g_components g)) -> reaches (to_component rust_num tt nopl font Some) r0 r ->
     document_of font Some r root -> In ce (contours_in root) -> plain_contour ce) /\
  flattened rust_num tt nopl font Some 10 None g = Some (Ok (g', rs)) /\
  map (map px) (contours g') = [[f32_of_Z 11; f32_of_Z 15; f32_of_Z 15]].
Proof.
  eexists _, _, _. split; [vm_compute; reflexivity|]. split; [exact I|]. split.
  - intros r0 r root ce _ _ (fn & txt & _ & Hf & Hp) Hc. injection Hp as <-. exact (font_plain _ _ _ Hf Hc).
  - split; vm_compute; reflexivity.
Qed.

(** And a glyph that is opened and flattened, but then cannot be saved: the contour of `O` is quadratic and ends in a control point. *)
Definition loose_font (p : path) : option element :=
  match p with
  | [f] => if str_eqb f (lit "O_.glif") then Some loose_doc else if str_eqb f (lit "user.glif") then Some (doc "user" [inc "O" "0" "0"]) else None
  | _ => None
  end.
Example C120_panic_case : exists (g g' : glif unit unit) rs,
  read_from_filename rust_num tt nopl element loose_font Some pedantry_default [lit "user.glif"] = Ok g /\
  flattened rust_num tt nopl loose_font Some 10 None g = Some (Ok (g', rs)) /\ glif_xml rust_num nopl false g' = Panic /\
  exists e, glif_xml rust_num nopl false g = Ok e.
Proof. do 3 eexists. split; [vm_compute; reflexivity|]. split; [vm_compute; reflexivity|]. split; [vm_compute; reflexivity|]. eexists. vm_compute. reflexivity. Qed.
