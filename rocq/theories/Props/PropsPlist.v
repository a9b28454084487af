(** Property C108: the property list of the lib. *)
Require Import Coq.Strings.String Coq.Lists.List Coq.Arith.Arith Coq.NArith.NArith Coq.ZArith.ZArith Coq.Bool.Bool Coq.Floats.SpecFloat Coq.micromega.Lia.
Require Import Verif.Model.Base Verif.Model.Text Verif.Model.Float Verif.Model.Num Verif.Model.RustNum Verif.Model.Point
  Verif.Model.Names Verif.Model.Pedantry Verif.Model.Color Verif.Model.Xml Verif.Model.XmlText Verif.Model.Parts Verif.Model.Read Verif.Model.Write Verif.Model.Interop Verif.Model.Plist
  Verif.Spec.TextSpec Verif.Spec.GlyphSpec Verif.Spec.XmlTextSpec Verif.Spec.PlistSpec
  Verif.Facts.NamesFacts Verif.Facts.GlyphFacts Verif.Facts.XmlTextFacts Verif.Facts.XmlGlyphFacts Verif.Facts.PlistFacts
  Verif.Props.PropsGlyph Verif.Props.PropsXml.
Import ListNotations.
Local Open Scope list_scope.

Section C108.
Context {X : Type} (S : scalars X).
Notation dictionary := (list (str * pvalue X)).

(** A lib element is read as a dictionary exactly when it holds one dictionary of the format, and
    otherwise as none. *)
Theorem C108_read_exact : forall e, match plist_of_element (xml_plist S) e with
  | PlOk d => exists root, elements_of (echildren e) [root] /\ reads_as S root (PDict d)
  | PlBad => ~ exists root d, elements_of (echildren e) [root] /\ reads_as S root (PDict d)
  | PlWriteError => False
  end.
Proof.
  intros e. cbn [plist_of_element xml_plist]. destruct (lib_dictionary S e) as [d| |] eqn:E.
  - now apply lib_dictionary_iff.
  - intros (root & d & H). assert (lib_dictionary S e = PlOk d) as E' by (apply lib_dictionary_iff; now exists root). congruence.
  - now apply lib_dictionary_not in E.
Qed.

(** A dictionary written is read again but for its blank texts. *)
Theorem C108_written_back : forall d : dictionary,
  well_formed S (PDict d) -> carried_value (PDict d) -> named (PDict d) -> ~ has_uid (PDict d) ->
  exists e d', element_of_plist (xml_plist S) d = Some e /\
    plist_of_element (xml_plist S) (Element (lit "plist") [] (echildren e)) = PlOk d' /\ blanks_lost (PDict d) (PDict d').
Proof.
  intros d Hw Hc Hn Hu. destruct (lib_written S d Hw Hc Hu) as (x & Hx & He). destruct (lib_read_back S d x Hw Hn Hx) as [E Hr].
  eexists. eexists. split; [exact He|]. split; [exact Hr|]. rewrite <- E. now apply emptied_lost.
Qed.

(** Without blank texts it is what C24 and C106 ask for. *)
Theorem C108_restored : forall d : dictionary,
  well_formed S (PDict d) -> carried_value (PDict d) -> named (PDict d) -> ~ has_uid (PDict d) ->
  (forall s, text_in (PDict d) s -> s = [] \/ ~ all_blank s) ->
  lib_ok (xml_plist S) (LPlist d) /\ carried_lib (xml_plist S) (LPlist d).
Proof.
  intros d Hw Hc Hn Hu Hb. apply emptied_same in Hb. destruct (lib_written S d Hw Hc Hu) as (x & Hx & He). destruct (lib_read_back S d x Hw Hn Hx) as [E Hr].
  rewrite Hb in E. injection E as E. rewrite <- E in Hr. split.
  - cbn [lib_ok]. eexists. split; [exact He|]. exact Hr.
  - intros e [H|(d' & [= <-] & H)]; [discriminate|]. cbn [element_of_plist xml_plist] in H. rewrite He in H. injection H as <-. cbn [echildren]. split.
    + apply (carried_parent "lib" [unblank x]); [lit_name|]. constructor; [|constructor]. now apply (value_carried_unblank S (PDict d)).
    + constructor; [|constructor]. rewrite <- (unblank_again x) at 2. apply unblank_unblanked.
Qed.

Section Glyph.
Context (L : numlib) {PD : Type} (pd0 : PD) (dbg : bool) (HL : forall f, f32_of_iof (iof_of_f32 L f) = f) (HN : carried_numbers L).
Notation P := (xml_plist S).

(** A glyph and the dictionary of its lib, written as the characters of a file and read again. *)
Theorem C108_text_exact : forall (g : glif PD dictionary) d,
  glyph_ok L P (libless g) -> carried_glyph P (libless g) -> ~ blank_note g -> g_lib g = LPlist d ->
  well_formed S (PDict d) -> carried_value (PDict d) -> named (PDict d) -> ~ has_uid (PDict d) ->
  exists t g' d', write_text L P dbg print_xml g = Ok t /\ read_text L pd0 P parse_xml t = Ok g' /\
    g_lib g' = LPlist d' /\ blanks_lost (PDict d) (PDict d') /\ glyph_restored (libless g) (libless g').
Proof.
  intros g d Hok Hcg Hb El Hw Hc Hn Hu. set (d' := map (fun kv : str * pvalue X => let '(k, v) := kv in (k, emptied v)) d).
  set (g1 := mkGlif (g_outline g) (g_anchors g) (g_components g) (g_guidelines g) (g_images g) (g_width g) (g_unicode g) (g_name g) (g_note g) (g_filename g) (LPlist d')).
  assert (lib_ok P (LPlist d') /\ carried_lib P (LPlist d')) as [O C].
  { apply C108_restored.
    - exact (well_formed_emptied S (PDict d) Hw).
    - exact (carried_emptied (PDict d) Hc).
    - exact (named_emptied (PDict d) Hn).
    - intros H. apply Hu. exact (uid_emptied (PDict d) H).
    - intros s Hs. apply (held_emptied (PDict d)) in Hs as (u & Hu' & E). destruct u; try discriminate. injection E as ->. apply emptied_text_full. }
  assert (glyph_ok L P g1) as Hok1. { destruct Hok as (A1 & A2 & A3 & A4 & A5 & A6 & _ & A8). do 6 (split; [assumption|]). split; assumption. }
  assert (carried_glyph P g1) as Hc1. { destruct Hcg as (A1 & A2 & A3 & A4 & A5 & A6 & A7 & _). do 7 (split; [assumption|]). assumption. }
  assert (glif_xml L P dbg g1 = glif_xml L P dbg g) as Eg.
  { unfold glif_xml. cbn [g1 g_outline g_name g_width g_unicode g_anchors g_components g_guidelines g_images g_note g_lib].
    assert (lib_nodes P (LPlist d') = lib_nodes P (g_lib g)) as ->; [|reflexivity]. rewrite El. unfold lib_nodes. cbn [element_of_plist xml_plist].
    unfold d'. now rewrite (lib_element_emptied S d Hw Hc Hu Hn). }
  destruct (C106_text_restored L pd0 P dbg HL HN g1 Hok1 Hc1 Hb) as (t & g' & H1 & H2 & H3).
  exists t, g', d'. split; [unfold write_text in *; now rewrite <- Eg|]. split; [exact H2|].
  pose proof H3 as H4. destruct H4 as (R1 & R2 & R3 & R4 & R5 & R6 & R7 & R8 & R9 & R10). cbn [g1 g_lib] in R9.
  split; [unfold lib_restored in R9; destruct (g_lib g'); try contradiction; congruence|]. split; [exact (emptied_lost (PDict d) Hu)|].
  do 8 (split; [assumption|]). split; [exact I|exact R10].
Qed.

(** Without blank texts all of it is restored. *)
Theorem C108_text_restored : forall (g : glif PD dictionary) d,
  glyph_ok L P (libless g) -> carried_glyph P (libless g) -> ~ blank_note g -> g_lib g = LPlist d ->
  well_formed S (PDict d) -> carried_value (PDict d) -> named (PDict d) -> ~ has_uid (PDict d) ->
  (forall s, text_in (PDict d) s -> s = [] \/ ~ all_blank s) ->
  exists t g', write_text L P dbg print_xml g = Ok t /\ read_text L pd0 P parse_xml t = Ok g' /\ g_lib g' = LPlist d /\ glyph_restored g g'.
Proof.
  intros g d Hok Hcg Hb El Hw Hc Hn Hu Ht. destruct (C108_restored d Hw Hc Hn Hu Ht) as [O C]. rewrite <- El in O, C.
  assert (glyph_ok L P g) as Hok1. { destruct Hok as (A1 & A2 & A3 & A4 & A5 & A6 & _ & A8). do 6 (split; [assumption|]). split; assumption. }
  assert (carried_glyph P g) as Hc1. { destruct Hcg as (A1 & A2 & A3 & A4 & A5 & A6 & A7 & _). do 7 (split; [assumption|]). assumption. }
  destruct (C106_text_restored L pd0 P dbg HL HN g Hok1 Hc1 Hb) as (t & g' & H1 & H2 & H3). exists t, g'. do 2 (split; [assumption|]). split; [|exact H3].
  destruct H3 as (R1 & R2 & R3 & R4 & R5 & R6 & R7 & R8 & R9 & R10). rewrite El in R9. unfold lib_restored in R9. destruct (g_lib g'); try contradiction. congruence.
Qed.

(** A blank text anywhere in the lib is not restored. *)
Theorem C108_blank_refuted : forall (g : glif PD dictionary) d,
  glyph_ok L P (libless g) -> carried_glyph P (libless g) -> ~ blank_note g -> g_lib g = LPlist d ->
  well_formed S (PDict d) -> carried_value (PDict d) -> named (PDict d) -> ~ has_uid (PDict d) ->
  (exists s, text_in (PDict d) s /\ s <> [] /\ all_blank s) ->
  exists t g', write_text L P dbg print_xml g = Ok t /\ read_text L pd0 P parse_xml t = Ok g' /\ g_lib g' <> LPlist d /\ ~ glyph_restored g g'.
Proof.
  intros g d Hok Hcg Hb El Hw Hc Hn Hu (s & Hs & Hne & Hbl). destruct (C108_text_exact g d Hok Hcg Hb El Hw Hc Hn Hu) as (t & g' & d' & H1 & H2 & H3 & H4 & _).
  exists t, g'. split; [exact H1|]. split; [exact H2|].
  assert (d' <> d) as Hd.
  { intros ->. assert (forall v : pvalue X, blanks_lost v v -> text_in v s -> s <> [] -> all_blank s -> False) as Y; [|eauto].
    clear. intros v. induction v as [t|z|b|x|n|l IH|e IH] using pvalue_nested; intros H Ht Hne Hbl.
    - inversion Ht; subst. inversion H; subst; [contradiction|congruence].
    - inversion Ht.
    - inversion Ht.
    - inversion Ht.
    - inversion Ht.
    - inversion H as [| | | | |? ? F|]; subst. inversion Ht as [|? v ? Hv Hw|]; subst. apply (IH v Hv); auto. clear - F Hv.
      assert (forall l l' : list (pvalue X), Forall2 blanks_lost l l' -> l = l' -> forall v, In v l -> blanks_lost v v) as Z; [|now apply (Z l l F)].
      clear. intros l l' F. induction F as [|a b l l' H F IH]; intros E v Hv; [destruct Hv|]. injection E as -> E. destruct Hv as [<-|Hv]; [exact H|now apply IH].
    - inversion H as [| | | | | |? ? F]; subst. inversion Ht as [| |? k v ? Hv Hw]; subst. apply (IH k v Hv); auto. clear - F Hv.
      assert (forall d d', Forall2 (fun a b : str * pvalue X => fst a = fst b /\ blanks_lost (snd a) (snd b)) d d' -> d = d' -> forall k v, In (k, v) d -> blanks_lost v v) as Z; [|now apply (Z e e F eq_refl k)].
      clear. intros d d' F. induction F as [|a b l l' H F IH]; intros E k v Hv; [destruct Hv|]. injection E as -> E. destruct Hv as [->|Hv]; [exact (proj2 H)|now apply (IH E k)]. }
  rewrite H3. split; [congruence|]. intros R. destruct R as (_ & _ & _ & _ & _ & _ & _ & _ & R & _). rewrite El, H3 in R. cbn in R. congruence.
Qed.

(** With a uid, or a character that XML does not have, anywhere in the lib, all of the lib is left
    out of the file without an error. *)
Theorem C108_unwritable_refuted : forall (g : glif PD dictionary) d, g_lib g = LPlist d ->
  has_uid (PDict d) \/ (exists s c, (text_in (PDict d) s \/ key_in (PDict d) s) /\ In c s /\ ~ document_char c) ->
  glif_xml L P dbg g = glif_xml L P dbg (libless g) /\
  forall (T : Type) (print : element -> option T), write_text L P dbg print g = write_text L P dbg print (libless g).
Proof.
  intros g d El H. assert (glif_xml L P dbg g = glif_xml L P dbg (libless g)) as E.
  { unfold glif_xml. cbn [libless g_outline g_name g_width g_unicode g_anchors g_components g_guidelines g_images g_note g_lib].
    assert (lib_nodes P (g_lib g) = lib_nodes P LNone) as ->; [|reflexivity]. rewrite El. unfold lib_nodes. cbn [element_of_plist xml_plist].
    now rewrite (lib_unwritable S d H). }
  split; [exact E|]. intros T print. unfold write_text. now rewrite E.
Qed.
End Glyph.
End C108.
Print Assumptions C108_read_exact.
Print Assumptions C108_written_back.
Print Assumptions C108_restored.
Print Assumptions C108_text_exact.
Print Assumptions C108_text_restored.
Print Assumptions C108_blank_refuted.
Print Assumptions C108_unwritable_refuted.

(** ** Cases *)
(** Real numbers as in the numbers of the standard library, no dates, no data. *)
Definition reals : scalars f32 := mkScalars (fun x => (lit "real", rust_f32_show x)) (fun n s => if str_eqb n (lit "real") then rust_f32_read s else None).
Definition ex_dict (s : str) : list (str * pvalue f32) :=
  [(lit "public.markColor", PText (lit "1,0,0,1")); (lit "com.example & co", PDict [(lit "on", PBool true); (lit "text", PText s); (lit "none", PText [])]);
   (lit "list", PArray [PInteger (-5); PScalar (fl "0.5"); PArray []; PDict []])].
Definition ex_lib (l : lib (list (str * pvalue f32))) : glif unit (list (str * pvalue f32)) :=
  mkGlif None [] components_default [] [] (Some 600%N) [65%N] (lit "A") None None l.
(** Checks on every value inside a value. *)
Fixpoint everywhere (f : pvalue f32 -> bool) (v : pvalue f32) : bool :=
  f v && match v with
         | PArray l => forallb (everywhere f) l
         | PDict d => forallb (fun kv => let '(_, x) := kv in everywhere f x) d
         | _ => true
         end.
Lemma everywhere_held f v : forall w, held v w -> everywhere f v = true -> f w = true.
Proof.
  intros w H. induction H as [v|l v w Hv H IH|d k v w Hv H IH]; intros E.
  - destruct v; cbn [everywhere] in E; now apply andb_true_iff in E.
  - cbn [everywhere] in E. apply andb_true_iff in E as [_ E]. rewrite forallb_forall in E. now apply IH, E.
  - cbn [everywhere] in E. apply andb_true_iff in E as [_ E]. rewrite forallb_forall in E. apply IH. exact (E (k, v) Hv).
Qed.
Definition plainb (s : str) : bool := forallb (fun c => andb (xml_char c) (negb (N.eqb c 13))) s.
Fixpoint differ (l : list str) : bool := match l with [] => true | k :: t => negb (existsb (str_eqb k) t) && differ t end.
Lemma differ_NoDup l : differ l = true -> NoDup l.
Proof.
  induction l as [|k t IH]; [constructor|]. cbn [differ]. intros H. apply andb_true_iff in H as [H1 H2]. constructor; [|now apply IH].
  intros Hk. apply negb_true_iff, not_true_iff_false in H1. apply H1, existsb_exists. exists k. split; [exact Hk|apply str_eqb_refl].
Qed.
Definition same_finite (x y : f32) : bool :=
  match x, y with S754_finite s m e, S754_finite s' m' e' => Bool.eqb s s' && Pos.eqb m m' && Z.eqb e e' | _, _ => false end.
Lemma same_finite_eq x y : same_finite x y = true -> x = y.
Proof.
  destruct x, y; try discriminate. cbn. intros H. apply andb_true_iff in H as [H H3]. apply andb_true_iff in H as [H1 H2].
  apply Bool.eqb_prop in H1. apply Pos.eqb_eq in H2. apply Z.eqb_eq in H3. congruence.
Qed.
Definition okb (v : pvalue f32) : bool :=
  match v with
  | PText s => plainb s
  | PInteger z => (Z.leb (- 2 ^ 63) z && Z.ltb z (2 ^ 64))%Z
  | PScalar x => same_finite x (fl "0.5")
  | PUid _ => false
  | PDict d => differ (map fst d) && forallb (fun k => plainb k && negb (blankb k)) (map fst d)
  | _ => true
  end.
Lemma okb_ok d : everywhere okb (PDict d) = true -> well_formed reals (PDict d) /\ carried_value (PDict d) /\ named (PDict d) /\ ~ has_uid (PDict d).
Proof.
  intros H. assert (forall w, held (PDict d) w -> okb w = true) as K by (intros w Hw; now apply (everywhere_held okb (PDict d))).
  assert (forall k, key_in (PDict d) k -> plainb k = true /\ blankb k = false) as KK.
  { intros k (e & x & He & Hk). apply K in He. cbn [okb] in He. apply andb_true_iff in He as [_ He]. rewrite forallb_forall in He.
    specialize (He k). apply andb_true_iff in He; [|apply in_map_iff; now exists (k, x)]. now rewrite negb_true_iff in He. }
  split; [split; [|split]|split; [|split]].
  - intros z Hz. apply K in Hz. cbn [okb] in Hz. apply andb_true_iff in Hz as [H1 H2]. apply Z.leb_le in H1. apply Z.ltb_lt in H2. now split.
  - intros e He. apply K in He. cbn [okb] in He. apply andb_true_iff in He as [He _]. now apply differ_NoDup.
  - intros x Hx. apply K in Hx. apply same_finite_eq in Hx as ->. split; [now left|]. split; [apply decided_text; vm_compute; reflexivity|]. split; [|vm_compute; reflexivity].
    exists 48%N. split; [vm_compute; auto|unfold blank; lia].
  - intros s [Hs|Hs]; apply decided_text; [now apply K in Hs|now apply KK].
  - intros k Hk. right. intros B. apply KK in Hk as [_ Hk]. apply blankb_false in Hk as (c & Hc & Hn). now apply Hn, B.
  - intros (n & Hn). now apply K in Hn.
Qed.
Lemma ex_lib_ok l : glyph_ok rust_num (xml_plist reals) (libless (ex_lib l)) /\ carried_glyph (xml_plist reals) (libless (ex_lib l)) /\ ~ blank_note (ex_lib l).
Proof.
  split; [|split].
  - split; [intros w [= <-]; reflexivity|]. split; [constructor; [unfold scalar; lia|constructor]|]. do 4 (split; [constructor|]). split; [exact I|constructor].
  - split; [apply decided_attribute; vm_compute; reflexivity|]. do 5 (split; [constructor|]). split; [discriminate|]. intros e [H|(d & H & _)]; discriminate.
  - intros (s & H & _). discriminate.
Qed.
(** A lib with texts, a number, booleans, arrays and dictionaries is restored; a lib with a blank
    text is not; a lib with a uid in an array is left out. *)
Example C108_case : exists t g', write_text rust_num (xml_plist reals) false print_xml (ex_lib (LPlist (ex_dict quoted))) = Ok t /\
  read_text rust_num tt (xml_plist reals) parse_xml t = Ok g' /\ g_lib g' = LPlist (ex_dict quoted) /\ glyph_restored (ex_lib (LPlist (ex_dict quoted))) g'.
Proof.
  destruct (ex_lib_ok (LPlist (ex_dict quoted))) as (H1 & H2 & H3). destruct (okb_ok (ex_dict quoted)) as (H4 & H5 & H6 & H7); [vm_compute; reflexivity|].
  apply (C108_text_restored reals rust_num tt false (fun f => eq_refl) C106_numbers _ (ex_dict quoted) H1 H2 H3 eq_refl H4 H5 H6 H7).
  assert (everywhere (fun v => match v with PText s => match s with [] => true | _ => negb (blankb s) end | _ => true end) (PDict (ex_dict quoted)) = true) as K by (vm_compute; reflexivity).
  intros s Hs. apply (everywhere_held _ _ _ Hs) in K. destruct s as [|c s]; [now left|right]. apply negb_true_iff, blankb_false in K as (x & Hx & Hb). intros B. now apply Hb, B.
Qed.
Example C108_blank_case : exists t g', write_text rust_num (xml_plist reals) false print_xml (ex_lib (LPlist (ex_dict (lit "  ")))) = Ok t /\
  read_text rust_num tt (xml_plist reals) parse_xml t = Ok g' /\ g_lib g' = LPlist (ex_dict []) /\ g_lib g' <> LPlist (ex_dict (lit "  ")).
Proof. eexists. eexists. split; [vm_compute; reflexivity|]. split; [vm_compute; reflexivity|]. split; [vm_compute; reflexivity|vm_compute; discriminate]. Qed.
Example C108_blank_hypotheses : exists (g : glif unit _) d, glyph_ok rust_num (xml_plist reals) (libless g) /\ carried_glyph (xml_plist reals) (libless g) /\ ~ blank_note g /\ g_lib g = LPlist d /\
  (well_formed reals (PDict d) /\ carried_value (PDict d) /\ named (PDict d) /\ ~ has_uid (PDict d)) /\ exists s, text_in (PDict d) s /\ s <> [] /\ all_blank s.
Proof.
  exists (ex_lib (LPlist (ex_dict (lit "  ")))), (ex_dict (lit "  ")). destruct (ex_lib_ok (LPlist (ex_dict (lit "  ")))) as (H1 & H2 & H3). do 3 (split; [assumption|]).
  split; [reflexivity|]. split; [apply okb_ok; vm_compute; reflexivity|]. exists (lit "  "). split; [|split; [discriminate|]].
  - eapply HeldDict; [right; left; reflexivity|]. eapply HeldDict; [right; left; reflexivity|]. constructor.
  - intros c [<-|[<-|[]]]; now left.
Qed.
Example C108_uid_case : has_uid (PDict [(lit "a", PArray [PUid 7%N]); (lit "b", PText (lit "kept?"))] : pvalue f32) /\
  glif_xml rust_num (xml_plist reals) false (ex_lib (LPlist [(lit "a", PArray [PUid 7%N]); (lit "b", PText (lit "kept?"))])) = glif_xml rust_num (xml_plist reals) false (ex_lib LNone).
Proof.
  assert (has_uid (PDict [(lit "a", PArray [PUid 7%N]); (lit "b", PText (lit "kept?"))] : pvalue f32)) as H.
  { exists 7%N. eapply HeldDict; [left; reflexivity|]. eapply HeldArray; [left; reflexivity|]. constructor. }
  split; [exact H|]. exact (proj1 (C108_unwritable_refuted reals rust_num false (ex_lib (LPlist _)) _ eq_refl (or_introl H))).
Qed.
(** The text itself, and a lib element with a repeated key. *)
Example C108_written : write_text rust_num (xml_plist reals) false print_xml (ex_lib (LPlist [(lit "a", PArray [PBool true; PInteger (-5)]); (lit "b", PText (lit "<"))])) =
  Ok (lit "<?xml version=""1.0"" encoding=""UTF-8""?>" ++ [10%N] ++ lit "<glyph name=""A"" format=""2"">" ++ [10%N] ++
      lit "  <advance width=""600""/>" ++ [10%N] ++ lit "  <unicode hex=""41""/>" ++ [10%N] ++ lit "  <lib>" ++ [10%N] ++ lit "    <dict>" ++ [10%N] ++
      lit "      <key>a</key>" ++ [10%N] ++ lit "      <array>" ++ [10%N] ++ lit "        <true/>" ++ [10%N] ++ lit "        <integer>-5</integer>" ++ [10%N] ++
      lit "      </array>" ++ [10%N] ++ lit "      <key>b</key>" ++ [10%N] ++ lit "      <string>&lt;</string>" ++ [10%N] ++
      lit "    </dict>" ++ [10%N] ++ lit "  </lib>" ++ [10%N] ++ lit "</glyph>").
Proof. vm_compute. reflexivity. Qed.
Example C108_repeated_key : exists e, parse_xml (lit "<lib><dict><key>a</key><true/><key>b</key><string/><key>a</key><integer>+12</integer></dict></lib>") = Some e /\
  plist_of_element (xml_plist reals) e = PlOk [(lit "a", PInteger 12); (lit "b", PText [])].
Proof. eexists. split; [vm_compute; reflexivity|]. vm_compute. reflexivity. Qed.
Example C108_no_dictionary : exists e, parse_xml (lit "<lib><array><true/></array></lib>") = Some e /\ plist_of_element (xml_plist reals) e = PlBad.
Proof. eexists. split; [vm_compute; reflexivity|]. vm_compute. reflexivity. Qed.
