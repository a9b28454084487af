(** Facts on the bytes of files and on files cut short. *)
Require Import Coq.Strings.String Coq.Lists.List Coq.Arith.Arith Coq.NArith.NArith Coq.ZArith.ZArith Coq.Bool.Bool Coq.micromega.Lia.
Require Import Verif.Model.Base Verif.Model.Text Verif.Model.Xml Verif.Model.XmlText Verif.Model.Utf8
  Verif.Spec.TextSpec Verif.Spec.GlyphSpec Verif.Spec.XmlTextSpec Verif.Spec.GrammarSpec Verif.Spec.BytesSpec
  Verif.Facts.NamesFacts Verif.Facts.XmlTextFacts Verif.Facts.GrammarFacts.
Import ListNotations.
Local Open Scope N_scope.
Local Open Scope list_scope.

(** ** UTF-8 *)
Lemma within_iff a b x : within a b x = true <-> a <= x <= b.
Proof. unfold within. rewrite andb_true_iff, !N.leb_le. reflexivity. Qed.
Ltac Zify.zify_post_hook ::= Z.to_euclidean_division_equations.
Lemma utf8_char_iff c b : utf8_bytes c b <-> scalar c /\ b = utf8_char c.
Proof.
  unfold scalar, utf8_char. split.
  - intros H. destruct H as [c H|x y H1 H2 H3|x y z H1 H2 H3 H4 H5|x y z w H1 H2 H3 H4].
    + split; [lia|]. now rewrite (proj2 (N.ltb_lt _ _) H).
    + split; [lia|]. rewrite (proj2 (N.ltb_ge _ _)) by lia. rewrite (proj2 (N.ltb_lt _ _)) by lia. repeat f_equal; lia.
    + split; [lia|]. rewrite (proj2 (N.ltb_ge _ 128)) by lia. rewrite (proj2 (N.ltb_ge _ 2048)) by lia. rewrite (proj2 (N.ltb_lt _ _)) by lia. repeat f_equal; lia.
    + split; [lia|]. rewrite (proj2 (N.ltb_ge _ 128)) by lia. rewrite (proj2 (N.ltb_ge _ 2048)) by lia. rewrite (proj2 (N.ltb_ge _ 65536)) by lia. repeat f_equal; lia.
  - intros [H ->]. destruct (N.ltb_spec c 128) as [H1|H1]; [now constructor|].
    destruct (N.ltb_spec c 2048) as [H2|H2].
    { assert (c = c / 64 * 64 + c mod 64) as E by lia. rewrite E at 1. constructor; lia. }
    destruct (N.ltb_spec c 65536) as [H3|H3].
    { assert (c = c / 4096 * 4096 + c / 64 mod 64 * 64 + c mod 64) as E by lia. rewrite E at 1. constructor; lia. }
    assert (c = c / 262144 * 262144 + c / 4096 mod 64 * 4096 + c / 64 mod 64 * 64 + c mod 64) as E by lia. rewrite E at 1. constructor; lia.
Qed.
Lemma utf8_iff t b : utf8 t b <-> Forall scalar t /\ b = utf8_encode t.
Proof.
  split.
  - induction 1 as [|c s b r H _ [IH1 ->]]; [split; [constructor|reflexivity]|]. apply utf8_char_iff in H as [H ->]. split; [now constructor|reflexivity].
  - intros [H ->]. induction H as [|c s Hc _ IH]; [constructor|]. cbn [utf8_encode flat_map]. constructor; [now apply utf8_char_iff|exact IH].
Qed.
Lemma decode_char c b : utf8_bytes c b -> forall r, utf8_decode (b ++ r) = before_rest c (utf8_decode r).
Proof.
  intros H r. destruct H as [c H|x y H1 H2 H3|x y z H1 H2 H3 H4 H5|x y z w H1 H2 H3 H4]; cbn [app utf8_decode].
  - now rewrite (proj2 (N.ltb_lt _ _) H).
  - rewrite (proj2 (N.ltb_ge _ 128)) by lia. rewrite !(proj2 (within_iff _ _ _)) by lia. cbn [andb]. f_equal; lia.
  - rewrite (proj2 (N.ltb_ge _ 128)) by lia. assert (within 194 223 (224 + x) = false) as -> by (apply not_true_iff_false; rewrite within_iff; lia). cbn [andb].
    match goal with |- context [if ?g then _ else _] => assert (g = true) as -> end; [|f_equal; lia].
    rewrite !andb_true_iff, !orb_true_iff, !andb_true_iff, !within_iff, !N.eqb_eq. lia.
  - rewrite (proj2 (N.ltb_ge _ 128)) by lia. assert (within 194 223 (240 + x) = false) as -> by (apply not_true_iff_false; rewrite within_iff; lia). cbn [andb].
    match goal with |- context [if ?g then before_rest ((240 + x - 224) * _ + _ + _) _ else _] => assert (g = false) as -> end.
    { apply not_true_iff_false. rewrite !andb_true_iff, !orb_true_iff, !andb_true_iff, !within_iff, !N.eqb_eq. lia. }
    match goal with |- context [if ?g then _ else _] => assert (g = true) as -> end; [|f_equal; lia].
    rewrite !andb_true_iff, !orb_true_iff, !andb_true_iff, !within_iff, !N.eqb_eq. lia.
Qed.
Lemma decode_app t b : utf8 t b -> forall r, utf8_decode (b ++ r) = match utf8_decode r with Some s => Some (t ++ s) | None => None end.
Proof.
  induction 1 as [|c s b r' H _ IH]; intros r; cbn [app]; [now destruct (utf8_decode r)|]. rewrite <- app_assoc, (decode_char c b H), IH. now destruct (utf8_decode r).
Qed.
Lemma decode_sound b : forall t, utf8_decode b = Some t -> utf8 t b.
Proof.
  induction b as [b IH] using (induction_ltof1 _ (@List.length N)). unfold ltof in IH. intros t H. destruct b as [|x b1]; [injection H as <-; constructor|].
  cbn [utf8_decode] in H. assert (forall c o, before_rest c o = Some t -> exists s, o = Some s /\ t = c :: s) as R by (intros c [s|] [= <-]; eauto).
  destruct (N.ltb_spec x 128) as [Hx|Hx].
  { apply R in H as (s & H & ->). apply (utf8_cons x s [x] b1); [now constructor|]. apply IH; [cbn; lia|exact H]. }
  destruct b1 as [|y b2]; [discriminate|].
  destruct (within 194 223 x && within 128 191 y) eqn:E2.
  { apply andb_true_iff in E2 as [E2 E3]. rewrite within_iff in E2, E3. apply R in H as (s & H & ->). apply (utf8_cons _ s [x; y] b2).
    - replace [x; y] with [192 + (x - 192); 128 + (y - 128)] by (repeat f_equal; lia). constructor; lia.
    - apply IH; [cbn; lia|exact H]. }
  destruct b2 as [|z b3]; [discriminate|].
  match type of H with (if ?g then _ else _) = _ => destruct g eqn:E3 end.
  { rewrite !andb_true_iff, !orb_true_iff, !andb_true_iff, !within_iff, !N.eqb_eq in E3. apply R in H as (s & H & ->). apply (utf8_cons _ s [x; y; z] b3).
    - replace [x; y; z] with [224 + (x - 224); 128 + (y - 128); 128 + (z - 128)] by (repeat f_equal; lia). constructor; lia.
    - apply IH; [cbn; lia|exact H]. }
  destruct b3 as [|w b4]; [discriminate|].
  match type of H with (if ?g then _ else _) = _ => destruct g eqn:E4 end; [|discriminate].
  rewrite !andb_true_iff, !orb_true_iff, !andb_true_iff, !within_iff, !N.eqb_eq in E4. apply R in H as (s & H & ->). apply (utf8_cons _ s [x; y; z; w] b4).
  - replace [x; y; z; w] with [240 + (x - 240); 128 + (y - 128); 128 + (z - 128); 128 + (w - 128)] by (repeat f_equal; lia). constructor; lia.
  - apply IH; [cbn; lia|exact H].
Qed.
Ltac Zify.zify_post_hook ::= idtac.
Lemma decode_iff b t : utf8_decode b = Some t <-> utf8 t b.
Proof.
  split; [apply decode_sound|]. intros H. rewrite <- (app_nil_r b), (decode_app t b H). cbn. now rewrite app_nil_r.
Qed.
Lemma decode_encode t : Forall scalar t -> utf8_decode (utf8_encode t) = Some t.
Proof. intros H. apply decode_iff, utf8_iff. now split. Qed.
(** The beginning of the bytes of a text is not UTF-8 or the beginning of the text. *)
Lemma decode_prefix b r t p : utf8_decode (b ++ r) = Some t -> utf8_decode b = Some p -> exists s, t = p ++ s /\ utf8_decode r = Some s.
Proof.
  intros Ht Hp. apply decode_iff in Hp. rewrite (decode_app p b Hp r) in Ht. destruct (utf8_decode r) as [s|]; [|discriminate]. injection Ht as <-. now exists s.
Qed.

(** ** Texts cut short *)
Lemma stops_app o r x : (r <> [] \/ match o with None | Some (TText _) => False | _ => True end) -> stops o r -> stops o (r ++ x).
Proof.
  intros Hr H. destruct o as [[]|]; cbn [stops] in *; auto; (destruct Hr as [Hr|[]]; destruct H as [H|H]; [contradiction|right; now apply opens_app]).
Qed.
Lemma pieces_prefix p ts : pieces p ts -> forall r ts', pieces (p ++ r) ts' ->
  (exists s ts0, ts = ts0 ++ [TText s]) \/ (exists w tr, blanks w /\ ts' = ts ++ tr /\ pieces (w ++ r) tr).
Proof.
  induction 1 as [|p o r0 ts H1 H2 H3 IH]; intros r ts' H.
  - right. exists [], ts'. split; [constructor|]. split; [reflexivity|exact H].
  - rewrite <- app_assoc in H.
    assert ((r0 = [] /\ (o = None \/ exists s, o = Some (TText s))) \/ (r0 <> [] \/ match o with None | Some (TText _) => False | _ => True end)) as [[-> Ho]|Hr].
    { destruct r0; [|right; left; discriminate]. destruct o as [[]|]; eauto 6. }
    + inversion H3; subst; [|match goal with P : piece ?q _, E : ?q ++ _ = [] |- _ => apply piece_nonempty in P; destruct q; [congruence|discriminate] end].
      destruct Ho as [->|(s & ->)].
      * right. inversion H1; subst. exists p, ts'. split; [assumption|]. split; [reflexivity|exact H].
      * left. exists s, []. reflexivity.
    + assert (lex1 (p ++ r0 ++ r) = Some (o, r0 ++ r)) as HL by (apply lex1_complete; [exact H1|now apply stops_app]).
      inversion H as [E|q o' r1 ts1 Q1 Q2 Q3 E E2]; [exfalso; apply piece_nonempty in H1; destruct p; [congruence|discriminate]|].
      pose proof (lex1_complete q o' r1 Q1 Q2) as HL'. rewrite E, HL in HL'. injection HL' as <- <-. clear E E2 HL.
      destruct (IH r ts1 Q3) as [(s & ts0 & ->)|(w & tr & Hw & -> & Hp)].
      * left. destruct o as [t|]; [exists s, (t :: ts0)|exists s, ts0]; reflexivity.
      * right. exists w, tr. split; [exact Hw|]. split; [now destruct o|exact Hp].
Qed.
Lemma build_rest ts : forall st tr e e', build st ts = Some e -> build st (ts ++ tr) = Some e' -> forallb is_other tr = true.
Proof.
  induction ts as [|t ts IH]; intros st tr e e' H H'; [discriminate|]. cbn [app build] in H, H'.
  assert (forall o, (if forallb is_other (ts ++ tr) then o else None) = Some e' -> forallb is_other tr = true) as R.
  { intros o. rewrite forallb_app. destruct (forallb is_other tr); [reflexivity|]. rewrite andb_false_r. discriminate. }
  destruct t as [n a [|]|n|s|s| |], st as [|[[n' a'] c] st]; try discriminate; try (now apply (IH _ tr e e') in H); try (now apply R in H').
  destruct (str_eqb n n'); [|discriminate]. destruct st as [|[[n2 a2] c2] st]; [|now apply (IH _ tr e e') in H]. now apply R in H'.
Qed.
Lemma build_prefix ts : forall st tr e e', build st ts = Some e -> build st (ts ++ tr) = Some e' -> e = e'.
Proof.
  induction ts as [|t ts IH]; intros st tr e e' H H'; [discriminate|]. cbn [app build] in H, H'.
  destruct t as [n a [|]|n|s|s| |], st as [|[[n' a'] c] st]; try discriminate; try (now apply (IH _ tr e e') in H).
  - destruct (forallb is_other ts); [|discriminate]. destruct (forallb is_other (ts ++ tr)); [|discriminate]. congruence.
  - destruct (str_eqb n n'); [|discriminate]. destruct st as [|[[n2 a2] c2] st]; [|now apply (IH _ tr e e') in H].
    destruct (forallb is_other ts); [|discriminate]. destruct (forallb is_other (ts ++ tr)); [|discriminate]. congruence.
Qed.
Lemma tree_end ts e : Tree ts e -> exists x ts', ts = ts' ++ [x] /\ forall s, x <> TText s.
Proof.
  intros [n a|n a ts' l _]; [exists (TStart n a true), []|exists (TEnd n), (TStart n a false :: ts')]; (split; [reflexivity|discriminate]).
Qed.
Lemma built_end ts e : build [] ts = Some e -> forall s ts0, ts <> ts0 ++ [TText s].
Proof.
  intros H s ts0 E. apply build_closes in H as (pre & tree & post & -> & _ & HT & HO). destruct post as [|x post _] using rev_ind.
  - rewrite app_nil_r in E. apply tree_end in HT as (x & ts' & -> & Hx). rewrite app_assoc in E. apply app_inj_tail in E as [_ E]. now apply (Hx s).
  - rewrite !app_assoc in E. apply app_inj_tail in E as [_ ->]. rewrite Forall_forall in HO. specialize (HO (TText s)). rewrite in_app_iff in HO.
    discriminate HO. right. now left.
Qed.
Lemma parse_pieces t e : parse_xml t = Some e <-> Forall document_char t /\ exists ts, pieces t ts /\ build [] ts = Some e.
Proof.
  unfold parse_xml. split.
  - destruct (forallb xml_char t) eqn:C; [|discriminate]. destruct (lex (List.length t) t) as [ts|] eqn:X; [|discriminate]. intros H. split.
    + apply Forall_forall. rewrite forallb_forall in C. intros c Hc. apply xml_char_iff; auto.
    + exists ts. split; [now apply lex_sound in X|exact H].
  - intros (C & ts & HP & HB). assert (forallb xml_char t = true) as ->.
    { apply forallb_forall. rewrite Forall_forall in C. intros c Hc. now apply xml_char_iff, C. }
    now rewrite (lex_complete _ _ HP _ (le_n _)).
Qed.
(** A document cut short is no document, or says the same. *)
Lemma parse_prefix p r e e' : parse_xml (p ++ r) = Some e -> parse_xml p = Some e' -> e' = e.
Proof.
  rewrite !parse_pieces. intros (_ & ts & HP & HB) (_ & ts' & HP' & HB'). destruct (pieces_prefix p ts' HP' r ts HP) as [(s & ts0 & E)|(w & tr & _ & -> & _)].
  - now apply built_end with (s := s) (ts0 := ts0) in HB'.
  - now apply (build_prefix ts' [] tr).
Qed.

(** What is written ends with the end of the element. *)
Lemma emit_last level e : exists s, emit level e = s ++ [62].
Proof.
  destruct e as [n a ch]. rewrite emit_eq. destruct ch as [|x ch].
  - exists (60 :: n ++ flat_map emit_attr a ++ lit "/"). cbn [app]. rewrite <- !app_assoc. reflexivity.
  - exists (60 :: n ++ flat_map emit_attr a ++ 62 :: emit_nodes (emit (S level)) level false (x :: ch) ++ lit "</" ++ n).
    cbn [app]. rewrite <- !app_assoc. cbn [app]. rewrite <- !app_assoc. reflexivity.
Qed.
Lemma tokens_last e : exists ts x, tokens e = ts ++ [x] /\ is_other x = false.
Proof.
  destruct e as [n a ch]. rewrite tokens_eq. destruct ch as [|x ch].
  - exists [], (TStart n a true). now split.
  - exists (TStart n a false :: child_tokens tokens (x :: ch)), (TEnd n). now split.
Qed.
Lemma written_pieces e : carried e -> exists t s, print_xml e = Some t /\ t = s ++ [62] /\ pieces t (TOther :: tokens e).
Proof.
  intros He. set (decl := lit "<?xml version=""1.0"" encoding=""UTF-8""?>").
  assert (Lex (decl ++ newline 0 ++ emit 0 e) (TOther :: tokens e)) as H.
  { refine (LexStep _ (Some TOther) (newline 0 ++ emit 0 e) (tokens e) _ _ _).
    - generalize (newline 0 ++ emit 0 e). intros X. destruct X; reflexivity.
    - rewrite (app_length decl). change (List.length decl) with 38%nat. lia.
    - rewrite <- (app_nil_r (emit 0 e)), <- (app_nil_r (tokens e)). apply Lex_newline; [apply emit_opens|]. apply Lex_emit; [exact He|constructor]. }
  destruct (emit_last 0 e) as [s Hs]. exists (decl ++ newline 0 ++ emit 0 e), (decl ++ newline 0 ++ s). split; [reflexivity|].
  split; [now rewrite Hs, <- !app_assoc|]. apply (lex_sound _ _ _ (Lex_lex _ _ H _ (le_n _))).
Qed.
(** Nothing written is a document before it is complete. *)
Lemma written_prefix e p r : carried e -> print_xml e = Some (p ++ r) -> r <> [] -> parse_xml p = None.
Proof.
  intros He Ht Hr. destruct (parse_xml p) as [e'|] eqn:Hp; [exfalso|reflexivity].
  destruct (written_pieces e He) as (t & s & Ht' & Hs & HP). rewrite Ht in Ht'. injection Ht' as <-.
  apply parse_pieces in Hp as (_ & ts & HP' & HB). destruct (pieces_prefix p ts HP' r _ HP) as [(s' & ts0 & E)|(w & tr & Hw & E & HP2)].
  { now apply built_end with (s := s') (ts0 := ts0) in HB. }
  destruct (tokens_last e) as (ts1 & x & Ex & Hx).
  destruct tr as [|y tr _] using rev_ind.
  - apply pieces_end in HP2. apply Forall_app in HP2 as [_ HP2]. destruct r as [|c r _] using rev_ind; [contradiction|].
    rewrite app_assoc in Hs. apply app_inj_tail in Hs as [_ ->]. apply Forall_app in HP2 as [_ HP2]. inversion HP2 as [|? ? B]; subst. unfold blank in B. cbn in B. intuition discriminate.
  - assert (build [] (ts ++ tr ++ [y]) = Some (unblank e)) as HB'.
    { rewrite <- E. cbn [build]. apply build_root. }
    pose proof (build_rest ts [] _ _ _ HB HB') as Ho. rewrite forallb_app in Ho. apply andb_true_iff in Ho as [_ Ho]. cbn in Ho.
    rewrite Ex, app_comm_cons, app_assoc in E. apply app_inj_tail in E as [_ <-]. rewrite Hx in Ho. discriminate.
Qed.
Lemma parsed_scalars t e : parse_xml t = Some e -> Forall scalar t.
Proof.
  intros H. apply parse_pieces in H as (H & _). eapply Forall_impl; [|exact H]. intros c Hc. unfold document_char in Hc. unfold scalar. lia.
Qed.
