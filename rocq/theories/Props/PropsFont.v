(** Property C99: a font saved file by file. *)
Require Import Coq.Strings.String Coq.Lists.List Coq.Arith.Arith Coq.NArith.NArith Coq.ZArith.ZArith Coq.Bool.Bool Coq.Floats.SpecFloat Coq.micromega.Lia
  Coq.Relations.Relation_Operators.
Require Import Verif.Model.Base Verif.Model.Text Verif.Model.Float Verif.Model.Num Verif.Model.RustNum Verif.Model.Point
  Verif.Model.Names Verif.Model.Pedantry Verif.Model.Color Verif.Model.Xml Verif.Model.Parts Verif.Model.Read Verif.Model.Write Verif.Model.Component Verif.Model.Interop
  Verif.Spec.NumSpec Verif.Spec.OutlineSpec Verif.Spec.GlyphSpec Verif.Spec.ComponentSpec Verif.Spec.DocumentSpec Verif.Spec.InteropSpec
  Verif.Facts.NamesFacts Verif.Facts.PathFacts Verif.Facts.GlyphFacts Verif.Facts.DocumentFacts Verif.Facts.InteropFacts
  Verif.Props.PropsStrings Verif.Props.PropsGlyph Verif.Props.PropsDocument Verif.Props.PropsComponent Verif.Props.PropsInterop
  Verif.Spec.FontSpec.
Import ListNotations.
Local Open Scope nat_scope.

Section C99.
Context (L : numlib) {PD PL : Type} (pd0 : PD) (P : plistlib PL) (dbg : bool).
Context {T : Type} (parse : T -> option element) (print : element -> option T) (steps : T -> list T) (interrupted : path -> T -> option nat).
Local Notation load := (read_from_filename L pd0 P T).
Local Notation history := (history L P dbg print steps interrupted).

(** C99: a file to which nothing happened still loads as it did. *)
Theorem C99_others_untouched : forall files (hs : list (happening (PD:=PD) (PL:=PL))) files' fn ped, history files hs files' -> (forall h, In h hs -> place h <> fn) ->
  files' fn = files fn /\ load files' parse ped fn = (load files parse ped fn : res (glif PD PL)).
Proof.
  intros files hs files' fn ped H. assert ((forall h, In h hs -> place h <> fn) -> files' fn = files fn) as E.
  { induction H as [|files hs f1 h f2 _ IH Hh]; intros Hn; [reflexivity|].
    rewrite <- IH by (intros x Hx; apply Hn; apply in_app_iff; now left).
    assert (place h <> fn) as Hp by (apply Hn; apply in_app_iff; right; now left).
    inversion Hh as [f fn' g f' E|f fn' g r f' E _|f fn' g k]; subst; cbn [place] in Hp.
    - apply (C67_saved L P dbg print steps interrupted) in E as (t & _ & _ & E). apply E. congruence.
    - pose proof (proj1 (C67_other_files L P dbg print steps interrupted f1 g fn' fn (fun X => Hp (eq_sym X)))) as X. now rewrite E in X.
    - exact (proj2 (C67_other_files L P dbg print steps interrupted f1 g fn' fn (fun X => Hp (eq_sym X))) k). }
  intros Hn. split; [now apply E|]. unfold read_from_filename. now rewrite (E Hn).
Qed.

(** C99: whatever happened before, and whatever happened since to other files, loading gives the
    glyph last saved. *)
Theorem C99_last_saved_is_loaded : forall files pre fn g post files',
  (forall f, f32_of_iof (iof_of_f32 L f) = f) -> glyph_ok L P g ->
  (forall e t, glif_xml L P dbg g = Ok e -> print e = Some t -> exists e', parse t = Some e' /\ glyph_alike e e') ->
  history files (pre ++ Saved fn g :: post) files' -> (forall h, In h post -> place h <> fn) ->
  exists g', load files' parse pedantry_default fn = Ok g' /\ glyph_restored g g' /\ g_filename g' = Some fn /\
    forall c dir old, In c (cs_vec (g_components g')) -> fn = dir ++ [old] -> ~ In old [lit "/"; lit "."; lit ".."] -> ~ In 47%N (c_base c) ->
      c_filename c = Some (home dir (c_base c)).
Proof.
  intros files pre fn g post files' HL Hok HX H Hn.
  assert (exists f1 f2, write_to_filename L P dbg print steps interrupted f1 g fn = (Ok tt, f2) /\ history f2 post files') as (f1 & f2 & Hs & Hp).
  { revert files' H. induction post as [|h post IH] using rev_ind; intros files' H.
    - inversion H as [? E1 E2|? hs f1 h f2 _ Hh E1 E2]; [destruct pre; discriminate|]. apply app_inj_tail in E2 as [_ ->].
      inversion Hh as [f fn' g' f' E| |]; subst. exists f1, files'. split; [exact E|constructor].
    - rewrite app_comm_cons, app_assoc in H. inversion H as [? E1 E2|? hs f1 h' f2 Hh1 Hh E1 E2]; [destruct pre; discriminate|].
      apply app_inj_tail in E2 as [-> ->]. destruct (IH (fun x Hx => Hn x ltac:(apply in_app_iff; now left)) f1 Hh1) as (fa & fb & A & B).
      exists fa, fb. split; [exact A|]. econstructor; eassumption. }
  destruct (C99_others_untouched f2 post files' fn pedantry_default Hp Hn) as [E _].
  apply (C67_saved L P dbg print steps interrupted) in Hs as (t & Ht & Hf & _). rewrite Hf in E.
  destruct (C24_glyph_restored L PD PL pd0 P dbg g HL Hok) as (e & g0 & H1 & H2 & H3).
  unfold write_text in Ht. rewrite H1 in Ht. cbn [bind] in Ht. destruct (print e) as [t'|] eqn:Epr; [|discriminate]. cbn in Ht. injection Ht as ->.
  destruct (HX e t H1 Epr) as (e' & He & Ha). rewrite (C26_order_of_kinds L PD PL pd0 P pedantry_default _ _ Ha) in H2.
  destruct (load files' parse pedantry_default fn) as [g'|er|] eqn:El.
  2,3: exfalso; unfold read_from_filename in El; rewrite E in El; cbn [ok_or bind] in El; rewrite He in El; cbn [ok_or bind] in El; rewrite H2 in El; discriminate.
  exists g'. split; [reflexivity|].
  apply C73_file_exact in El as (txt & root & g1 & A & B & C & D). rewrite E in A. injection A as <-. rewrite He in B. injection B as <-.
  apply read_element_says in C. rewrite H2 in C. injection C as <-.
  destruct D as (D1 & D2 & D3 & D4 & D5 & D6 & D7 & D8 & D9 & D10 & D11 & D12 & D13).
  split; [|split; [exact D1|]].
  - destruct H3 as (R1 & R2 & R3 & R4 & R5 & R6 & R7 & R8 & R9 & R10). unfold glyph_restored, contours in *.
    rewrite D5, D6, D7, D8, D9, D10, D11, D12, D13. repeat (split; [assumption|]). split; [|split; [assumption|split; [assumption|split; assumption]]].
    clear - R6 D2. revert D2. generalize (cs_vec (g_components g')). induction R6 as [|c c0 l l0 (A & B & C) _ IH]; intros m D2; inversion D2 as [|? c' ? m' X Y]; subst; constructor.
    + destruct X as (X1 & X2 & X3 & _). unfold component_restored. now rewrite X1, X2, X3.
    + now apply IH.
  - intros c dir old Hc Efn Hold Hb.
    assert (exists c0, c_base c = c_base c0 /\ exists p, c_filename c = Some p /\ beside fn (name_to_filename (c_base c0) true) p) as (c0 & Eb & p & Ep & (d & Hd & ->)).
    { clear - D2 Hc. induction D2 as [|x y l m (A & _ & _ & B) _ IH]; [destruct Hc|]. destruct Hc as [->|Hc]; eauto. }
    rewrite Ep. f_equal. rewrite <- Eb, push_glif by exact Hb. unfold home. rewrite <- name_to_filename_shape. f_equal.
    destruct Hd as [(old' & Hd & _)|[_ Hd]].
    + rewrite Efn in Hd. apply app_inj_tail in Hd as [-> _]. reflexivity.
    + exfalso. apply Hold. eapply Hd. exact Efn.
Qed.

(** C99: the files of a font are different files. *)
Theorem C99_different_files : forall (dir : path) (gs : list (glif PD PL)), font gs -> NoDup (map (fun g => home dir (g_name g)) gs).
Proof.
  intros dir gs [Hd _]. rewrite <- (map_map g_name (home dir)). apply FinFun.Injective_map_NoDup; [|exact Hd].
  intros a b E. unfold home in E. apply app_inj_tail in E as [_ E]. rewrite <- !name_to_filename_shape in E. now apply C01_filename_injective in E.
Qed.

(** C99: a font saved glyph by glyph is loaded glyph by glyph, and the components of each glyph
    lead to the files of the glyphs they name. *)
Theorem C99_font_restored : forall (dir : path) (gs : list (glif PD PL)) files files',
  (forall f, f32_of_iof (iof_of_f32 L f) = f) -> font gs -> Forall (glyph_ok L P) gs ->
  (forall h e t, In h gs -> glif_xml L P dbg h = Ok e -> print e = Some t -> exists e', parse t = Some e' /\ glyph_alike e e') ->
  history files (map (fun g => Saved (home dir (g_name g)) g) gs) files' ->
  forall g, In g gs -> exists g', load files' parse pedantry_default (home dir (g_name g)) = Ok g' /\ glyph_restored g g' /\
    forall c h, In c (cs_vec (g_components g')) -> In h gs -> c_base c = g_name h ->
      exists h', c_filename c = Some (home dir (g_name h)) /\
        load files' parse pedantry_default (home dir (g_name h)) = Ok h' /\ glyph_restored h h'.
Proof.
  intros dir gs files files' HL Hf Hok HX H. rewrite Forall_forall in Hok.
  assert (forall g, In g gs -> exists g', load files' parse pedantry_default (home dir (g_name g)) = Ok g' /\ glyph_restored g g' /\
    forall c h, In c (cs_vec (g_components g')) -> In h gs -> c_base c = g_name h -> c_filename c = Some (home dir (g_name h))) as Hall.
  { intros g Hg. pose proof (C99_different_files dir gs Hf) as Hnd. specialize (Hok g Hg). destruct Hf as [_ Hs]. revert H.
    pose proof Hg as Hg'. apply in_split in Hg' as (g1 & g2 & E). rewrite E in Hnd |- *. rewrite map_app in Hnd |- *. cbn [map] in Hnd |- *. intros H.
    apply NoDup_remove_2 in Hnd.
    destruct (C99_last_saved_is_loaded files _ _ g _ files' HL Hok (fun e t => HX g e t Hg) H) as (g' & A & B & _ & D).
    { intros h Hh X. apply in_map_iff in Hh as (x & <- & Hx). cbn [place] in X. apply Hnd. apply in_app_iff. right. apply in_map_iff. eauto. }
    exists g'. split; [exact A|]. split; [exact B|]. intros c h Hc Hh Eb. rewrite <- Eb.
    apply (D c dir (filename_of (g_name g)) Hc); [reflexivity| |rewrite Eb; apply Hs; rewrite <- E in *; exact Hh].
    rewrite <- name_to_filename_shape. apply glif_normal. }
  intros g Hg. destruct (Hall g Hg) as (g' & A & B & D). exists g'. split; [exact A|]. split; [exact B|].
  intros c h Hc Hh Eb. destruct (Hall h Hh) as (h' & A' & B' & _). exists h'. split; [now apply D|]. split; assumption.
Qed.

(** A glyph loaded through a component is the one loaded from the file. *)
Lemma to_component_load files r fn (h : glif PD PL) : c_filename r = Some fn -> load files parse pedantry_default fn = Ok h ->
  exists c, to_component L pd0 P files parse r = Ok c /\ parts c = cs_vec (g_components h).
Proof.
  intros Hr. unfold read_from_filename, to_component. rewrite Hr. cbn [ok_or bind].
  destruct (files fn) as [t|]; [|discriminate]. cbn [ok_or bind]. destruct (parse t) as [root|]; [|discriminate]. cbn [ok_or bind].
  destruct (read_element L pd0 P pedantry_default root) as [n|e|]; [|discriminate|discriminate]. cbn [bind]. intros [= <-]. eexists. split; reflexivity.
Qed.

Section Flatten.
Context (dir : path) (gs : list (glif PD PL)) (files' : path -> option T).
Context (Hfont : font gs) (Hself : self_contained gs).
Context (Hload : forall g, In g gs -> exists g', load files' parse pedantry_default (home dir (g_name g)) = Ok g' /\ glyph_restored g g' /\
    forall c h, In c (cs_vec (g_components g')) -> In h gs -> c_base c = g_name h -> c_filename c = Some (home dir (g_name h))).
Local Notation follow := (to_component L pd0 P files' parse).

Definition homely (r : glifcomponent) : Prop := c_filename r = Some (home dir (c_base r)) /\ exists h, In h gs /\ g_name h = c_base r.

Lemma restored_bases (g g' : glif PD PL) : glyph_restored g g' -> map c_base (cs_vec (g_components g')) = map c_base (cs_vec (g_components g)).
Proof. intros (_ & _ & _ & _ & _ & H & _). induction H as [|c c' l l' (E & _) _ IH]; [reflexivity|]. cbn [map]. now rewrite E, IH. Qed.

Lemma loaded_parts g g' : In g gs -> load files' parse pedantry_default (home dir (g_name g)) = Ok g' ->
  (forall r, In r (cs_vec (g_components g')) -> homely r /\ mentions gs (g_name g) (c_base r)) /\
  (forall b, mentions gs (g_name g) b -> exists r, In r (cs_vec (g_components g')) /\ homely r /\ c_base r = b).
Proof.
  intros Hg Hl. destruct (Hload g Hg) as (g1 & H1 & H2 & H3). rewrite Hl in H1. injection H1 as <-.
  pose proof (restored_bases g g' H2) as Eb.
  assert (forall r, In r (cs_vec (g_components g')) -> homely r /\ mentions gs (g_name g) (c_base r)) as A.
  { intros r Hr. assert (mentions gs (g_name g) (c_base r)) as Hm.
    { pose proof (in_map c_base _ _ Hr) as X. rewrite Eb in X. apply in_map_iff in X as (c & Ec & Hc). exists g, c. auto. }
    split; [|exact Hm]. destruct (Hself _ _ Hm) as (h & Hh & En). split; [|eauto]. rewrite <- En. now apply (H3 r h). }
  split; [exact A|]. intros b (g2 & c & Hg2 & En & Hc & Ebase).
  assert (g2 = g) as ->.
  { destruct Hfont as [Hnd _]. clear - Hnd Hg Hg2 En. induction gs as [|x l IH]; [destruct Hg|]. cbn [map] in Hnd. inversion_clear Hnd as [|? ? N1 N2].
    destruct Hg as [->|Hg], Hg2 as [->|Hg2]; auto.
    - exfalso. apply N1. rewrite <- En. now apply in_map.
    - exfalso. apply N1. rewrite En. now apply in_map. }
  pose proof (in_map c_base _ _ Hc) as X. rewrite <- Eb in X. apply in_map_iff in X as (r & Er & Hr). exists r. split; [exact Hr|]. split; [now apply A|congruence].
Qed.

Lemma homely_follow r : homely r -> exists c h h', follow r = Ok c /\ In h gs /\ g_name h = c_base r /\
  load files' parse pedantry_default (home dir (g_name h)) = Ok h' /\ parts c = cs_vec (g_components h').
Proof.
  intros [Hf (h & Hh & En)]. destruct (Hload h Hh) as (h' & H1 & _). rewrite <- En in Hf.
  destruct (to_component_load files' r _ h' Hf H1) as (c & Hc & Hp). exists c, h, h'. auto.
Qed.
Lemma homely_includes r r' : homely r -> includes follow r r' -> homely r' /\ mentions gs (c_base r) (c_base r').
Proof.
  intros Hr (c & Hc & Hp). destruct (homely_follow r Hr) as (c1 & h & h' & H1 & H2 & H3 & H4 & H5). rewrite Hc in H1. injection H1 as <-.
  rewrite H5 in Hp. rewrite <- H3. now apply (loaded_parts h h' H2 H4).
Qed.
Lemma homely_mentions r b : homely r -> mentions gs (c_base r) b -> exists r', includes follow r r' /\ homely r' /\ c_base r' = b.
Proof.
  intros Hr Hm. destruct (homely_follow r Hr) as (c & h & h' & H1 & H2 & H3 & H4 & H5). rewrite <- H3 in Hm.
  destruct (proj2 (loaded_parts h h' H2 H4) b Hm) as (r' & A & B & C). exists r'. split; [|auto]. exists c. rewrite H5. auto.
Qed.
Lemma homely_reaches r r' : homely r -> reaches follow r r' -> homely r' /\ clos_refl_trans_1n _ (mentions gs) (c_base r) (c_base r').
Proof.
  intros Hr H. revert Hr. induction H as [r|r x r' H _ IH]; intros Hr; [split; [exact Hr|constructor]|].
  destruct (homely_includes r x Hr H) as [A B]. destruct (IH A) as [C D]. split; [exact C|]. econstructor; eassumption.
Qed.
Lemma homely_deep r r' : homely r -> includes_deep follow r r' -> homely r' /\ clos_trans_1n _ (mentions gs) (c_base r) (c_base r').
Proof.
  intros Hr H. revert Hr. induction H as [r r' H|r x r' H _ IH]; intros Hr; destruct (homely_includes _ _ Hr H) as [A B].
  - split; [exact A|]. now constructor.
  - destruct (IH A) as [C D]. split; [exact C|]. econstructor 2; eassumption.
Qed.
Lemma mentions_reaches a b : clos_refl_trans_1n _ (mentions gs) a b -> forall r, homely r -> c_base r = a ->
  exists r', reaches follow r r' /\ homely r' /\ c_base r' = b.
Proof.
  induction 1 as [a|a x b H _ IH]; intros r Hr E; [exists r; split; [constructor|auto]|]. rewrite <- E in H.
  destruct (homely_mentions r x Hr H) as (r1 & A & B & C). destruct (IH r1 B C) as (r' & D & F). exists r'. split; [|exact F]. econstructor; eassumption.
Qed.
Lemma mentions_deep a b : clos_trans_1n _ (mentions gs) a b -> forall r, homely r -> c_base r = a ->
  exists r', includes_deep follow r r' /\ homely r' /\ c_base r' = b.
Proof.
  induction 1 as [a b H|a x b H _ IH]; intros r Hr E; rewrite <- E in H; destruct (homely_mentions r _ Hr H) as (r1 & A & B & C).
  - exists r1. split; [now constructor|auto].
  - destruct (IH r1 B C) as (r' & D & F). exists r'. split; [|exact F]. econstructor 2; eassumption.
Qed.
Lemma homely_same r r' : homely r -> homely r' -> c_base r = c_base r' -> same_glyph r r'.
Proof. intros [A _] [B _] E. split; [exact E|]. now rewrite A, B, E. Qed.

Lemma circles_cyclic g g' : In g gs -> load files' parse pedantry_default (home dir (g_name g)) = Ok g' ->
  (in_circles gs (g_name g) <-> cyclic follow (cs_vec (g_components g'))).
Proof.
  intros Hg Hl. destruct (loaded_parts g g' Hg Hl) as [A B]. split.
  - assert (forall x b, mentions gs (g_name g) x -> clos_refl_trans_1n _ (mentions gs) x b -> clos_trans_1n _ (mentions gs) b b -> cyclic follow (cs_vec (g_components g'))) as Hx.
    { intros x b Hm Hr Hd. destruct (B x Hm) as (r0 & I0 & H0 & E0). destruct (mentions_reaches x b Hr r0 H0 E0) as (r & R1 & R2 & R3).
      destruct (mentions_deep b b Hd r R2 R3) as (r' & D1 & D2 & D3). exists r0, r, r'. split; [exact I0|]. split; [exact R1|]. split; [exact D1|].
      apply homely_same; [exact R2|exact D2|congruence]. }
    intros (b & Hs & Hd). inversion Hs as [E|x ? Hm Hr]; subst.
    + assert (forall a c, clos_trans_1n _ (mentions gs) a c -> exists x, mentions gs a x /\ clos_refl_trans_1n _ (mentions gs) x c) as Hf.
      { clear. intros a c H. destruct H as [c H|x c H H']; [exists c; split; [exact H|constructor]|]. exists x. split; [exact H|].
        clear H. induction H' as [x c H|x y c H _ IH]; [econstructor; [exact H|constructor]|econstructor; eassumption]. }
      destruct (Hf _ _ Hd) as (x & Hm & Hr).
      assert (clos_trans_1n _ (mentions gs) x x) as Hx'.
      { clear - Hr Hm. revert Hm. generalize x at 1 3. intros z Hm. induction Hr as [y|x y c H _ IH]; [now constructor|]. econstructor 2; [exact H|]. now apply IH. }
      apply (Hx x x Hm); [constructor|exact Hx'].
    + exact (Hx x b Hm Hr Hd).
  - intros (r0 & r & r' & I0 & R & D & [Eb _]). destruct (A r0 I0) as [H0 Hm]. destruct (homely_reaches r0 r H0 R) as [H1 H2].
    destruct (homely_deep r r' H1 D) as [H3 H4]. exists (c_base r). split; [econstructor; eassumption|]. now rewrite <- Eb in H4.
Qed.
End Flatten.

(** C99: in a saved font all of whose components are there, flattening a loaded glyph succeeds
    unless its components lead to a glyph that includes itself, which is then reported. *)
Theorem C99_font_flattened : forall (dir : path) (gs : list (glif PD PL)) files files' texts,
  (forall f, f32_of_iof (iof_of_f32 L f) = f) -> font gs -> self_contained gs -> Forall (glyph_ok L P) gs ->
  (forall h e t, In h gs -> glif_xml L P dbg h = Ok e -> print e = Some t -> exists e', parse t = Some e' /\ glyph_alike e e') ->
  (forall p t, files p = Some t -> In t texts) ->
  history files (map (fun g => Saved (home dir (g_name g)) g) gs) files' ->
  forall g, In g gs -> exists g' n, load files' parse pedantry_default (home dir (g_name g)) = Ok g' /\
    forall fuel rects, n <= fuel ->
      (~ in_circles gs (g_name g) -> exists flat rs, flattened L pd0 P files' parse fuel rects g' = Some (Ok (flat, rs))) /\
      (in_circles gs (g_name g) -> exists base from, flattened L pd0 P files' parse fuel rects g' = Some (Err (ECyclical base from (g_name g)))).
Proof.
  intros dir gs files files' texts HL Hf Hs Hok HX Hfin H g Hg.
  assert (forall g, In g gs -> exists g', load files' parse pedantry_default (home dir (g_name g)) = Ok g' /\ glyph_restored g g' /\
    forall c h, In c (cs_vec (g_components g')) -> In h gs -> c_base c = g_name h -> c_filename c = Some (home dir (g_name h))) as Hload.
  { intros x Hx. destruct (C99_font_restored dir gs files files' HL Hf Hok HX H x Hx) as (x' & A & B & D). exists x'. split; [exact A|]. split; [exact B|].
    intros c h Hc Hh E. now destruct (D c h Hc Hh E) as (h' & E' & _). }
  assert (exists texts', forall p t, files' p = Some t -> In t texts') as (texts' & Hfin').
  { clear - H Hfin. revert H. generalize (map (fun g => Saved (home dir (g_name g)) g) gs). intros hs H. revert texts Hfin.
    induction H as [f|f hs f1 h f2 _ IH Hh]; intros texts Hfin; [eauto|]. destruct (IH texts Hfin) as (tx & Htx).
    assert (forall fn (g : glif PD PL), (forall p, p <> fn -> f2 p = f1 p) -> exists texts', forall p t, f2 p = Some t -> In t texts') as Hone.
    { intros fn g0 Hp. exists (match f2 fn with Some t => t :: tx | None => tx end). intros p t Ht.
      destruct (list_eq_dec (list_eq_dec N.eq_dec) p fn) as [->|Hne].
      - rewrite Ht. now left.
      - rewrite (Hp p Hne) in Ht. apply Htx in Ht. destruct (f2 fn); [now right|exact Ht]. }
    inversion Hh as [? fn g0 f' E|? fn g0 r f' E _|? fn g0 k]; subst; apply (Hone fn g0); intros p Hp.
    - pose proof (proj1 (C67_other_files L P dbg print steps interrupted f1 g0 fn p Hp)) as X. now rewrite E in X.
    - pose proof (proj1 (C67_other_files L P dbg print steps interrupted f1 g0 fn p Hp)) as X. now rewrite E in X.
    - exact (proj2 (C67_other_files L P dbg print steps interrupted f1 g0 fn p Hp) k). }
  destruct (Hload g Hg) as (g' & Hl & Hr & _). pose proof (circles_cyclic dir gs files' Hf Hs Hload g g' Hg Hl) as Hcirc.
  destruct (loaded_parts dir gs files' Hf Hs Hload g g' Hg Hl) as [A _].
  assert (cs_uniques (g_components g') = [] /\ cs_root (g_components g') = g_name g) as [Hu Hroot].
  { apply C73_file_exact in Hl as (txt & root & g0 & _ & _ & D & F). destruct D as (_ & _ & _ & _ & _ & _ & _ & _ & _ & _ & _ & D1 & D2 & _).
    destruct F as (_ & _ & F1 & F2 & _ & _ & _ & _ & _ & _ & F3 & _). split; [congruence|]. rewrite F1, D1, <- F3. apply Hr. }
  destruct (C32_cycle_iff L pd0 P files' parse texts' (g_components g') Hu Hfin') as (n & Hn).
  { intros r0 r I0 D. destruct (A r0 I0) as [H0 _]. destruct (homely_deep dir gs files' Hf Hs Hload r0 r H0 D) as [[_ (h & Hh & En)] _].
    unfold plain_name. rewrite <- En. now apply Hf. }
  { intros r0 r I0 D. destruct (A r0 I0) as [H0 _]. destruct (homely_reaches dir gs files' Hf Hs Hload r0 r H0 D) as [H1 _].
    destruct (homely_follow dir gs files' Hload r H1) as (c & h & h' & Hc & _). eauto. }
  exists g', n. split; [exact Hl|]. intros fuel rects Hfu. destruct (Hn fuel Hfu) as [N1 N2]. unfold flattened. split; intros Hc.
  - destruct N2 as (ts & ->); [now rewrite <- Hcirc|]. destruct (flatten_forest ts []). eauto.
  - destruct N1 as (base & from & ->); [now apply Hcirc|]. rewrite Hroot. eauto.
Qed.
End C99.
Print Assumptions C99_others_untouched.
Print Assumptions C99_last_saved_is_loaded.
Print Assumptions C99_different_files.
Print Assumptions C99_font_restored.
Print Assumptions C99_font_flattened.

(** Two glyphs, the first made of the second; then the second is being saved again when the
    machine stops. *)
Definition ex_part : glif unit unit :=
  mkGlif (g_outline ex_glyph) [] (mkComponents (lit "B") [] []) [] [] (Some 300%N) [66]%N (lit "B") None None LNone.
Lemma ex_part_ok : glyph_ok rust_num no_plist ex_part.
Proof.
  destruct ex_glyph_ok as (_ & _ & _ & _ & _ & _ & _ & H). unfold glyph_ok. cbn [ex_part g_width g_unicode g_anchors g_guidelines g_components cs_vec g_images g_lib].
  split; [intros w E; injection E as <-; reflexivity|]. split; [apply Forall_cons; [left; reflexivity|apply Forall_nil]|].
  repeat (split; [apply Forall_nil|]). split; [exact I|exact H].
Qed.
Example C99_case : exists files' files'',
  font [ex_glyph; ex_part] /\ self_contained [ex_glyph; ex_part] /\ ~ in_circles [ex_glyph; ex_part] (lit "A") /\ Forall (glyph_ok rust_num no_plist) [ex_glyph; ex_part] /\
  history rust_num no_plist true Some (fun e => [e]) (fun _ _ => None) (fun _ => None)
    (map (fun g => Saved (home [lit "glyphs"] (g_name g)) g) [ex_glyph; ex_part]) files' /\
  history rust_num no_plist true Some (fun e => [new_element "gone"; e]) (fun _ _ => None) (fun _ => None)
    ([] ++ Saved (home [lit "glyphs"] (lit "A")) ex_glyph :: [Stopped (home [lit "glyphs"] (lit "B")) ex_part]) files'' /\
  files'' (home [lit "glyphs"] (lit "B")) = Some (new_element "gone") /\
  map c_base (cs_vec (g_components ex_glyph)) = [g_name ex_part].
Proof.
  do 2 eexists. split.
  { split; [apply NoDup_cons; [intros [X|[]]; discriminate|apply NoDup_cons; [intros []|apply NoDup_nil]]|].
    intros g [<-|[<-|[]]] X; cbn in X; destruct X as [X|[]]; discriminate. }
  assert (forall a b, mentions [ex_glyph; ex_part] a b -> a = lit "A" /\ b = lit "B") as Hm.
  { intros a b (g & c & [<-|[<-|[]]] & <- & Hc & <-); [destruct Hc as [<-|[]]; auto|destruct Hc]. }
  split; [intros a b H; apply Hm in H as [_ ->]; exists ex_part; split; [right; now left|reflexivity]|].
  split; [intros (b & _ & H); assert (exists x y, mentions [ex_glyph; ex_part] b x /\ mentions [ex_glyph; ex_part] y b) as (x & y & H1 & H2);
    [|apply Hm in H1 as [-> _], H2 as [_ H2]; discriminate]|].
  { assert (forall p q, clos_trans_1n _ (mentions [ex_glyph; ex_part]) p q -> exists x y, mentions [ex_glyph; ex_part] p x /\ mentions [ex_glyph; ex_part] y q) as X.
    { induction 1 as [p q X|p r q X _ (x & y & _ & Y)]; eauto. }
    now apply X. }
  split; [apply Forall_cons; [exact ex_glyph_ok|apply Forall_cons; [exact ex_part_ok|apply Forall_nil]]|]. split; [|split; [|split]].
  - eapply (and_then _ _ _ _ _ _ _ [_]); [eapply (and_then _ _ _ _ _ _ _ []); [apply nothing_yet|]|]; apply it_is_saved; vm_compute; reflexivity.
  - eapply (and_then _ _ _ _ _ _ _ [_]); [eapply (and_then _ _ _ _ _ _ _ []); [apply nothing_yet|]|apply it_stops with (k := 1)].
    apply it_is_saved; vm_compute; reflexivity.
  - vm_compute. reflexivity.
  - reflexivity.
Qed.
