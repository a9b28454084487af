(** The parser reads exactly the documents of the grammar, for C107. *)
Require Import Coq.Strings.String Coq.Lists.List Coq.Arith.Arith Coq.NArith.NArith Coq.Bool.Bool Coq.micromega.Lia.
Require Import Verif.Model.Base Verif.Model.Text Verif.Model.Xml Verif.Model.XmlText Verif.Spec.TextSpec Verif.Spec.XmlTextSpec Verif.Spec.GrammarSpec
  Verif.Facts.NamesFacts Verif.Facts.DigitFacts Verif.Facts.XmlTextFacts.
Import ListNotations.
Local Open Scope N_scope.
Local Open Scope list_scope.

(** * Characters, names *)
Lemma blanks_space w : blanks w <-> Forall (fun c => xml_space c = true) w.
Proof. unfold blanks. rewrite !Forall_forall. split; intros H c Hc; specialize (H c Hc); now apply xml_space_iff. Qed.
Lemma blanks_forallb w : forallb xml_space w = true <-> blanks w.
Proof. rewrite blanks_space, forallb_forall, Forall_forall. reflexivity. Qed.
Lemma name_first_iff c : name_start c = true <-> name_first c.
Proof. unfold name_start, name_first. rewrite !orb_true_iff, !andb_true_iff, !N.leb_le, !N.eqb_eq. tauto. Qed.
Lemma name_char_iff c : name_char c = true <-> (name_first c \/ 48 <= c <= 57 \/ c = 45 \/ c = 46).
Proof. unfold name_char. rewrite !orb_true_iff, name_first_iff, !andb_true_iff, !N.leb_le, !N.eqb_eq. tauto. Qed.
Lemma xml_name_iff n : is_name n = true <-> xml_name n.
Proof.
  unfold xml_name. destruct n as [|c t]; cbn [is_name].
  - split; [discriminate|]. intros (c & t & H & _). discriminate.
  - rewrite andb_true_iff, name_first_iff, forallb_forall. split.
    + intros [H1 H2]. exists c, t. split; [reflexivity|]. split; [exact H1|]. apply Forall_forall. intros d Hd. apply name_char_iff, H2. now right.
    + intros (c' & t' & [= -> ->] & H1 & H2). split; [exact H1|]. rewrite Forall_forall in H2. intros d [<-|Hd]; apply name_char_iff; [now left|auto].
Qed.
Lemma xml_name_chars n : xml_name n -> Forall (fun c => name_char c = true) n.
Proof.
  intros (c & t & -> & H1 & H2). constructor; [apply name_char_iff; now left|]. eapply Forall_impl; [|exact H2]. intros d Hd. now apply name_char_iff.
Qed.
Lemma space_not_name c : xml_space c = true -> name_char c = false.
Proof.
  intros H. apply xml_space_iff in H. apply not_true_iff_false. rewrite name_char_iff. unfold blank in H. unfold name_first. lia.
Qed.

(** * Pieces of text *)
Lemma span_sound f s a b : span f s = (a, b) -> s = a ++ b /\ Forall (fun c => f c = true) a /\ match b with [] => True | c :: _ => f c = false end.
Proof.
  revert a b. induction s as [|c s IH]; cbn [span]; intros a b H; [injection H as <- <-; now repeat split|].
  destruct (f c) eqn:E.
  - destruct (span f s) as [a' b'] eqn:E'. injection H as <- <-. destruct (IH a' b' eq_refl) as (-> & H1 & H2). repeat split; auto.
  - injection H as <- <-. now repeat split.
Qed.
Lemma starts_sound p s r : starts p s = Some r -> s = p ++ r.
Proof.
  revert s. induction p as [|c p IH]; intros s; cbn [starts]; [now intros [= <-]|].
  destruct s as [|d s]; [discriminate|]. destruct (N.eqb_spec c d) as [<-|_]; [|discriminate]. intros H. cbn [app]. f_equal. now apply IH.
Qed.
Lemma starts_none p s : starts p s = None -> forall r, s <> p ++ r.
Proof. intros H r ->. rewrite starts_app in H. discriminate. Qed.
Lemma cut_sound p s a b : cut p s = Some (a, b) -> s = a ++ p ++ b /\ free_of p a \/ p = [] /\ a = [] /\ b = s.
Proof.
  revert a b. induction s as [|c s IH]; intros a b H; cbn [cut] in H.
  - destruct (starts p []) as [r|] eqn:E; [|discriminate]. injection H as <- <-. apply starts_sound in E. destruct p; [right; auto|discriminate].
  - destruct (starts p (c :: s)) as [r|] eqn:E.
    + injection H as <- <-. apply starts_sound in E. destruct p as [|x p]; [right; auto|]. left. split; [exact E|]. intros u v Hu. destruct u; discriminate.
    + destruct (cut p s) as [[a' b']|] eqn:E'; [|discriminate]. injection H as <- <-. destruct (IH a' b' eq_refl) as [[-> H]|(-> & _)]; [|discriminate].
      left. split; [reflexivity|]. intros u v Hu. destruct u as [|x u]; cbn [app] in Hu.
      * apply (starts_none _ _ E (v ++ p ++ b')). change (c :: a' ++ p ++ b') with ((c :: a') ++ p ++ b'). rewrite Hu, <- !app_assoc. reflexivity.
      * injection Hu as <- Hu. now apply (H u v).
Qed.
Lemma cut_complete p' x a b : ~ In x p' -> free_of (p' ++ [x]) a -> cut (p' ++ [x]) (a ++ (p' ++ [x]) ++ b) = Some (a, b).
Proof.
  intros Hx. revert b. induction a as [|c a IH]; intros b Ha; cbn [app].
  - assert (forall s r, starts (p' ++ [x]) s = Some r -> cut (p' ++ [x]) s = Some ([], r)) as A by (intros s r E; destruct s; cbn [cut]; now rewrite E).
    apply A, starts_app.
  - cbn [cut]. destruct (starts (p' ++ [x]) (c :: a ++ (p' ++ [x]) ++ b)) as [r|] eqn:E.
    + exfalso. apply starts_sound in E. change (c :: a ++ (p' ++ [x]) ++ b) with ((c :: a) ++ (p' ++ [x]) ++ b) in E.
      assert (forall q, (c :: a) ++ (p' ++ [x]) ++ b = q -> exists u, q = (c :: a) ++ u) as _ by (intros q <-; eauto).
      destruct (Nat.le_gt_cases (List.length (p' ++ [x])) (List.length (c :: a))) as [Hl|Hl].
      * apply (Ha [] (skipn (List.length (p' ++ [x])) (c :: a))). cbn [app]. rewrite <- (firstn_skipn (List.length (p' ++ [x])) (c :: a)) at 1. f_equal.
        apply (f_equal (firstn (List.length (p' ++ [x])))) in E. rewrite firstn_app, (firstn_app _ (p' ++ [x]) r), Nat.sub_diag, firstn_all in E.
        replace (List.length (p' ++ [x]) - List.length (c :: a))%nat with 0%nat in E by lia. cbn [firstn] in E. now rewrite !app_nil_r in E.
      * rewrite app_length in Hl. cbn [List.length] in Hl.
        assert (nth_error ((c :: a) ++ (p' ++ [x]) ++ b) (List.length p') = Some x) as N1.
        { rewrite E, nth_error_app1 by (rewrite app_length; cbn; lia). rewrite nth_error_app2 by lia. now rewrite Nat.sub_diag. }
        rewrite nth_error_app2 in N1 by (cbn [List.length]; lia). rewrite nth_error_app1 in N1 by (rewrite app_length; cbn [List.length]; lia).
        rewrite nth_error_app1 in N1 by (cbn [List.length]; lia). apply nth_error_In in N1. now apply Hx.
    + rewrite IH; [reflexivity|]. intros u v ->. now apply (Ha (c :: u) v).
Qed.
Lemma cut_lit (p : string) (x : N) (p' : str) a b : lit p = p' ++ [x] -> ~ In x p' -> free_of (lit p) a -> cut (lit p) (a ++ lit p ++ b) = Some (a, b).
Proof. intros -> Hx Ha. now apply cut_complete. Qed.
Lemma free_of_char q s : free_of [q] s <-> ~ In q s.
Proof.
  unfold free_of. split.
  - intros H Hq. apply in_split in Hq as (a & b & ->). now apply (H a b).
  - intros H a b ->. apply H, in_or_app. right. now left.
Qed.

(** * References *)
Lemma reference_iff b c : reference b = Some c <-> stands_for b c.
Proof.
  split.
  - unfold reference. destruct (str_eqb b (lit "lt")) eqn:E1; [apply str_eqb_eq in E1 as ->; intros [= <-]; constructor|].
    destruct (str_eqb b (lit "gt")) eqn:E2; [apply str_eqb_eq in E2 as ->; intros [= <-]; constructor|].
    destruct (str_eqb b (lit "amp")) eqn:E3; [apply str_eqb_eq in E3 as ->; intros [= <-]; constructor|].
    destruct (str_eqb b (lit "apos")) eqn:E4; [apply str_eqb_eq in E4 as ->; intros [= <-]; constructor|].
    destruct (str_eqb b (lit "quot")) eqn:E5; [apply str_eqb_eq in E5 as ->; intros [= <-]; constructor|].
    intros H. assert (exists x, (match b with
              | 35 :: 120 :: t => match t with [] => None | _ => digits_val 16 t 0 end
              | 35 :: t => match t with [] => None | _ => digits_val 10 t 0 end
              | _ => None
              end) = Some x /\ xml_char x = true /\ x = c) as (x & Hx & Hc & ->).
    { match type of H with match ?m with _ => _ end = _ => destruct m as [x|]; [|discriminate] end. exists x. destruct (xml_char x) eqn:E; [|discriminate]. injection H as ->. auto. }
    apply xml_char_iff in Hc. destruct b as [|b0 b]; [discriminate|]. destruct (N.eq_dec b0 35) as [->|N0].
    2:{ exfalso. destruct b0 as [|p]; [discriminate|]. do 6 (destruct p as [p|p|]; try discriminate Hx). now apply N0. }
    destruct b as [|b1 b]; [discriminate|]. destruct (N.eq_dec b1 120) as [->|N1].
    + destruct b as [|b2 b]; [discriminate|]. apply (stands_hexadecimal (b2 :: b)); [|exact Hc]. now apply digits_val_denotes.
    + apply (stands_decimal (b1 :: b)); [|exact Hc]. apply digits_val_denotes; [lia|discriminate|].
      destruct b1 as [|p]; [exact Hx|]. do 7 (destruct p as [p|p|]; try exact Hx). now exfalso.
  - intros H. destruct H as [| | | | |ds c Hd Hc|ds c Hd Hc]; try reflexivity.
    + pose proof (denotes_nonempty _ _ _ Hd) as Hn. apply digits_val_denotes in Hd; [|lia|exact Hn]. apply xml_char_iff in Hc.
      destruct ds as [|d ds]; [congruence|]. unfold reference.
      assert (forall s, (forall x, In x s -> x <> 35) -> s <> [] -> str_eqb (lit "#" ++ d :: ds) s = false) as A.
      { intros s Hs Hne. apply str_eqb_neq. intros E. destruct s as [|x s]; [congruence|]. injection E as E _. now apply (Hs x (or_introl eq_refl)). }
      rewrite !A by (discriminate || (intros x Hx; cbn in Hx; lia)). change (lit "#") with [35]. cbn [app].
      assert (d <> 120) as Nd. { intros ->. cbn in Hd. discriminate. }
      replace (match d with 120 => match ds with [] => None | _ => digits_val 16 ds 0 end | _ => digits_val 10 (d :: ds) 0 end) with (digits_val 10 (d :: ds) 0).
      * rewrite Hd, Hc. reflexivity.
      * destruct d as [|p]; [reflexivity|]. do 7 (destruct p as [p|p|]; try reflexivity). now exfalso.
    + pose proof (denotes_nonempty _ _ _ Hd) as Hn. apply digits_val_denotes in Hd; [|lia|exact Hn]. apply xml_char_iff in Hc.
      destruct ds as [|d ds]; [congruence|]. unfold reference.
      assert (forall s, (forall x, In x s -> x <> 35) -> s <> [] -> str_eqb (lit "#x" ++ d :: ds) s = false) as A.
      { intros s Hs Hne. apply str_eqb_neq. intros E. destruct s as [|x s]; [congruence|]. injection E as E _. now apply (Hs x (or_introl eq_refl)). }
      rewrite !A by (discriminate || (intros x Hx; cbn in Hx; lia)). change (lit "#x") with [35; 120]. cbn [app]. now rewrite Hd, Hc.
Qed.
Lemma denotes_digit radix ds n : denotes radix ds n -> forall c, In c ds -> exists d, is_digit_of radix c d.
Proof.
  induction 1 as [c d H|s n c d _ IH H]; intros x Hx.
  - destruct Hx as [<-|[]]. eauto.
  - apply in_app_iff in Hx as [Hx|[<-|[]]]; eauto.
Qed.
Lemma stands_clean b c : stands_for b c -> ~ In 59 b /\ ~ In 60 b.
Proof.
  intros H. destruct H as [| | | | |ds c Hd _|ds c Hd _]; try (split; cbn; lia).
  - assert (forall x, In x ds -> x <> 59 /\ x <> 60) as A.
    { intros x Hx. destruct (denotes_digit _ _ _ Hd x Hx) as (d & _ & [D|D]); apply nth_error_In in D; cbn in D; lia. }
    change (lit "#") with [35]. split; intros [H|H]; try lia; apply A in H; lia.
  - assert (forall x, In x ds -> x <> 59 /\ x <> 60) as A.
    { intros x Hx. destruct (denotes_digit _ _ _ Hd x Hx) as (d & _ & [D|D]); apply nth_error_In in D; cbn in D; lia. }
    change (lit "#x") with [35; 120]. split; intros [H|[H|H]]; try lia; apply A in H; lia.
Qed.
Lemma unescape_inside b t : ~ In 59 b -> forall r, unescape (Some r) (b ++ 59 :: t) =
  match reference (rev r ++ b), unescape None t with Some x, Some s => Some (x :: s) | _, _ => None end.
Proof.
  induction b as [|c b IH]; intros Hb r; cbn [app unescape].
  - rewrite N.eqb_refl, app_nil_r. reflexivity.
  - destruct (N.eqb_spec c 59) as [->|_]; [exfalso; apply Hb; now left|]. rewrite IH by (intros H; apply Hb; now right).
    cbn [rev]. rewrite <- app_assoc. reflexivity.
Qed.
Lemma unescape_open t : ~ In 59 t -> forall r, unescape (Some r) t = None.
Proof.
  induction t as [|c t IH]; intros Ht r; [reflexivity|]. cbn [unescape]. destruct (N.eqb_spec c 59) as [->|_]; [exfalso; apply Ht; now left|].
  apply IH. intros H. apply Ht. now right.
Qed.
Lemma split_first (x : N) s : In x s -> exists a b, s = a ++ x :: b /\ ~ In x a.
Proof.
  induction s as [|c s IH]; [intros []|]. intros H. destruct (N.eq_dec c x) as [->|N]; [exists [], s; split; [reflexivity|intros []]|].
  destruct H as [H|H]; [contradiction|]. destruct (IH H) as (a & b & -> & Ha). exists (c :: a), b. split; [reflexivity|]. intros [E|E]; auto.
Qed.
Lemma spells_complete raw s : spells raw s -> unescape None raw = Some s /\ ~ In 60 raw.
Proof.
  induction 1 as [|c r s H1 H2 _ [IH1 IH2]|b c r s H _ [IH1 IH2]]; [split; [reflexivity|intros []]| |].
  - cbn [unescape]. destruct (N.eqb_spec c 38); [contradiction|]. rewrite IH1. split; [reflexivity|]. intros [E|E]; auto.
  - destruct (stands_clean b c H) as [C1 C2]. change (lit "&") with [38]. change (lit ";") with [59]. cbn [app unescape].
    change (38 =? 38) with true. cbn iota. rewrite unescape_inside by exact C1. cbn [rev app]. apply reference_iff in H. rewrite H, IH1.
    split; [reflexivity|]. intros [E|E]; [discriminate|]. apply in_app_iff in E as [E|[E|E]]; [auto|discriminate|auto].
Qed.
Lemma spells_sound raw s : unescape None raw = Some s -> ~ In 60 raw -> spells raw s.
Proof.
  revert s. induction raw as [raw IH] using (induction_ltof1 _ (@List.length N)). unfold ltof in IH. intros s H Hn.
  destruct raw as [|c r]; [injection H as <-; constructor|]. cbn [unescape] in H. destruct (N.eqb_spec c 38) as [->|Nc].
  - destruct (in_dec N.eq_dec 59 r) as [I|I]; [|rewrite unescape_open in H by exact I; discriminate].
    destruct (split_first 59 r I) as (b & t & -> & Hb). rewrite unescape_inside in H by exact Hb. cbn [rev app] in H.
    destruct (reference b) as [x|] eqn:R; [|discriminate]. destruct (unescape None t) as [s'|] eqn:U; [|discriminate]. injection H as <-.
    apply reference_iff in R. apply (spells_reference b x t s' R). apply IH; [cbn [List.length]; rewrite app_length; cbn [List.length]; lia|exact U|].
    intros E. apply Hn. right. apply in_app_iff. right. now right.
  - destruct (unescape None r) as [s'|] eqn:U; [|discriminate]. injection H as <-. constructor; [exact Nc|intros ->; apply Hn; now left|].
    apply IH; [cbn; lia|exact U|]. intros E. apply Hn. now right.
Qed.

(** * Start tags *)
Definition tag_end (ends : bool) : str := if ends then lit "/>" else lit ">".
Lemma skip_complete w r : blanks w -> match r with [] => True | c :: _ => xml_space c = false end -> skip_space (w ++ r) = r.
Proof. intros Hw Hr. unfold skip_space. now rewrite (span_app xml_space w r (proj1 (blanks_space w) Hw) Hr). Qed.
Lemma skip_sound s r : skip_space s = r -> exists w, s = w ++ r /\ blanks w.
Proof.
  unfold skip_space. destruct (span xml_space s) as [a b] eqn:E. intros <-. apply span_sound in E as (-> & H & _). exists a. split; [reflexivity|now apply blanks_space].
Qed.
Lemma attributes_sound fuel s l e r : attributes fuel s = Some (l, e, r) -> exists t, s = t ++ tag_end e ++ r /\ attributes_text t l.
Proof.
  revert s l e r. induction fuel as [|fuel IH]; intros s l e r H; [discriminate|]. cbn [attributes] in H.
  destruct (span xml_space s) as [sp s0] eqn:Esp. apply span_sound in Esp as (-> & Hsp & _). apply blanks_space in Hsp.
  destruct (starts (lit "/>") s0) as [r0|] eqn:E1.
  { apply starts_sound in E1 as ->. injection H as <- <- <-. exists sp. split; [reflexivity|]. now constructor. }
  destruct (starts (lit ">") s0) as [r0|] eqn:E2.
  { apply starts_sound in E2 as ->. injection H as <- <- <-. exists sp. split; [reflexivity|]. now constructor. }
  destruct (span name_char s0) as [n r1] eqn:En. apply span_sound in En as (-> & _ & _).
  destruct (negb (is_name n) || match sp with [] => true | _ => false end) eqn:Eb; [discriminate|]. apply orb_false_iff in Eb as [Hn Hs].
  apply negb_false_iff, xml_name_iff in Hn.
  destruct (starts (lit "=") (skip_space r1)) as [r2|] eqn:E3; [|discriminate]. apply starts_sound in E3. apply skip_sound in E3 as (w1 & -> & Hw1).
  destruct (skip_space r2) as [|q r3] eqn:E4; [discriminate|]. apply skip_sound in E4 as (w2 & -> & Hw2).
  destruct (negb ((q =? 34) || (q =? 39))) eqn:Eq; [discriminate|]. apply negb_false_iff, orb_true_iff in Eq. rewrite !N.eqb_eq in Eq.
  destruct (cut [q] r3) as [[raw r4]|] eqn:E5; [|discriminate]. apply cut_sound in E5 as [[-> Hq]|(? & _)]; [|discriminate]. apply free_of_char in Hq.
  destruct (existsb (N.eqb 60) raw) eqn:E6; [discriminate|].
  destruct (unescape None raw) as [v|] eqn:E7; [|discriminate]. destruct (attributes fuel r4) as [[[l' e'] r']|] eqn:E8; [|discriminate].
  destruct (existsb (str_eqb n) (map fst l')) eqn:E9; [discriminate|]. injection H as <- <- <-. destruct (IH _ _ _ _ E8) as (t & -> & Ht).
  exists (sp ++ n ++ w1 ++ lit "=" ++ w2 ++ [q] ++ raw ++ [q] ++ t). split.
  - change (q :: raw ++ [q] ++ t ++ tag_end e' ++ r') with ([q] ++ raw ++ [q] ++ t ++ tag_end e' ++ r'). now rewrite <- !app_assoc.
  - constructor; auto.
    + intros ->. discriminate.
    + apply spells_sound; [exact E7|]. intros H. apply not_true_iff_false in E6. apply E6, existsb_exists. exists 60. split; [exact H|reflexivity].
    + intros H. apply not_true_iff_false in E9. apply E9, existsb_exists. exists n. split; [exact H|apply str_eqb_refl].
Qed.
Lemma attributes_complete t l e r : attributes_text t l -> forall fuel, (List.length l < fuel)%nat -> attributes fuel (t ++ tag_end e ++ r) = Some (l, e, r).
Proof.
  induction 1 as [w Hw|w n w1 w2 q raw v t l Hw Hne Hn Hw1 Hw2 Hq Hraw Hv Ht IH Hnew]; intros fuel Hf; (destruct fuel as [|fuel]; [cbn in Hf; lia|]); cbn [attributes].
  - rewrite (span_app xml_space w (tag_end e ++ r)); [|now apply blanks_space|destruct e; reflexivity].
    destruct e; unfold tag_end; [now rewrite starts_app|].
    assert (forall X, starts (lit "/>") (lit ">" ++ X) = None) as -> by reflexivity. now rewrite starts_app.
  - rewrite <- !app_assoc. pose proof (xml_name_chars n Hn) as Hch. pose proof (proj2 (xml_name_iff n) Hn) as Hnm.
    destruct Hn as (c & n' & -> & Hc & Hn'). rewrite (span_app xml_space w); [|now apply blanks_space|].
    2:{ cbn [app]. apply not_true_iff_false. rewrite xml_space_iff. unfold blank, name_first in *. lia. }
    assert (47 =? c = false) as E47 by (apply N.eqb_neq; unfold name_first in Hc; lia).
    assert (62 =? c = false) as E62 by (apply N.eqb_neq; unfold name_first in Hc; lia).
    assert (forall X, starts (lit "/>") ((c :: n') ++ X) = None) as -> by (intros X; cbn -[N.eqb]; now rewrite E47).
    assert (forall X, starts (lit ">") ((c :: n') ++ X) = None) as -> by (intros X; cbn -[N.eqb]; now rewrite E62).
    rewrite (span_app name_char (c :: n')); [|exact Hch|].
    2:{ destruct w1 as [|x w1]; [reflexivity|]. cbn [app]. apply space_not_name. inversion Hw1. now apply xml_space_iff. }
    rewrite Hnm. destruct w as [|x w]; [congruence|]. cbn [negb orb].
    rewrite (skip_complete w1); [|exact Hw1|reflexivity]. rewrite starts_app.
    rewrite (skip_complete w2); [|exact Hw2|]. 2:{ cbn [app]. destruct Hq as [-> | ->]; reflexivity. }
    cbn [app]. assert (negb ((q =? 34) || (q =? 39)) = false) as -> by (destruct Hq as [-> | ->]; reflexivity).
    rewrite cut_char by exact Hraw. destruct (spells_complete raw v Hv) as [E1 E2].
    assert (existsb (N.eqb 60) raw = false) as ->.
    { apply not_true_iff_false. intros H. apply existsb_exists in H as (y & Hy & E). apply N.eqb_eq in E as <-. contradiction. }
    rewrite E1, IH by (cbn in Hf; lia).
    assert (existsb (str_eqb (c :: n')) (map fst l) = false) as ->; [|reflexivity].
    apply not_true_iff_false. intros H. apply existsb_exists in H as (y & Hy & E). apply str_eqb_eq in E as <-. contradiction.
Qed.
Lemma attributes_count t l : attributes_text t l -> (List.length l <= List.length t)%nat.
Proof. induction 1; [cbn; lia|]. rewrite !app_length. cbn [List.length]. lia. Qed.

(** * Tokens *)
(** The text of one token; no token for white space. *)
Inductive piece : str -> option token -> Prop :=
| piece_blank w : w <> [] -> blanks w -> piece w None
| piece_text raw s : spells raw s -> ~ blanks raw -> piece raw (Some (TText s))
| piece_cdata s : free_of (lit "]]>") s -> piece (lit "<![CDATA[" ++ s ++ lit "]]>") (Some (TCData s))
| piece_aside t : aside t -> piece t (Some TOther)
| piece_doctype u : ~ In 62 u -> piece (lit "<!DOCTYPE" ++ u ++ lit ">") (Some TDoctype)
| piece_end n w : xml_name n -> blanks w -> piece (lit "</" ++ n ++ w ++ lit ">") (Some (TEnd n))
| piece_start n t a e : xml_name n -> attributes_text t a -> piece (lit "<" ++ n ++ t ++ tag_end e) (Some (TStart n a e)).
(** Runs of characters go on to the next tag. *)
Definition stops (o : option token) (r : str) : Prop :=
  match o with None | Some (TText _) => r = [] \/ opens r | _ => True end.
Lemma blanks_run w : blanks w -> Forall (fun c => negb (c =? 60) = true) w.
Proof. intros H. eapply Forall_impl; [|exact H]. cbn beta. intros c Hc. apply negb_true_iff, N.eqb_neq. unfold blank in Hc. lia. Qed.
Lemma spells_run raw s : spells raw s -> Forall (fun c => negb (c =? 60) = true) raw.
Proof.
  intros H. apply spells_complete in H as [_ H]. apply Forall_forall. intros c Hc. apply negb_true_iff, N.eqb_neq. intros ->. contradiction.
Qed.
Lemma stops_run r : (r = [] \/ opens r) -> match r with [] => True | c :: _ => negb (c =? 60) = false end.
Proof. intros [-> |[t ->]]; [exact I|reflexivity]. Qed.
Lemma lex1_run raw r : raw <> [] -> Forall (fun c => negb (c =? 60) = true) raw -> (r = [] \/ opens r) ->
  lex1 (raw ++ r) = if forallb xml_space raw then Some (None, r) else match unescape None raw with Some t => Some (Some (TText t), r) | None => None end.
Proof.
  intros Hne Hr Hs. destruct raw as [|c raw]; [congruence|]. cbn [app]. unfold lex1. inversion Hr as [|x l Hc _ E1]; subst. apply negb_true_iff in Hc. rewrite Hc.
  rewrite app_comm_cons, (span_app _ (c :: raw) r Hr (stops_run r Hs)). reflexivity.
Qed.
Lemma lex1_complete p o r : piece p o -> stops o r -> lex1 (p ++ r) = Some (o, r).
Proof.
  intros H Hs. destruct H as [w Hne Hw|raw s Hsp Hb|s Hc|t Ht|u Hu|n w Hn Hw|n t a e Hn Ha].
  - rewrite lex1_run; [|exact Hne|now apply blanks_run|exact Hs]. now rewrite (proj2 (blanks_forallb w) Hw).
  - rewrite lex1_run; [|intros ->; apply Hb; constructor|eapply spells_run; eassumption|exact Hs].
    destruct (forallb xml_space raw) eqn:E; [apply blanks_forallb in E; contradiction|]. apply spells_complete in Hsp as [-> _]. reflexivity.
  - rewrite <- !app_assoc.
    assert (forall X, lex1 (lit "<![CDATA[" ++ X) = match cut (lit "]]>") X with Some (t, r) => Some (Some (TCData t), r) | None => None end) as -> by (intros X; reflexivity).
    rewrite (cut_lit "]]>" 62 [93; 93]); [reflexivity|reflexivity|cbn; lia|exact Hc].
  - destruct Ht as [(u & -> & Hu)|(u & -> & Hu)]; rewrite <- !app_assoc.
    + assert (forall X, lex1 (lit "<!--" ++ X) = match cut (lit "-->") X with Some (_, r) => Some (Some TOther, r) | None => None end) as -> by (intros X; reflexivity).
      rewrite (cut_lit "-->" 62 [45; 45]); [reflexivity|reflexivity|cbn; lia|exact Hu].
    + assert (forall X, lex1 (lit "<?" ++ X) = match cut (lit "?>") X with Some (_, r) => Some (Some TOther, r) | None => None end) as -> by (intros X; reflexivity).
      rewrite (cut_lit "?>" 62 [63]); [reflexivity|reflexivity|cbn; lia|exact Hu].
  - rewrite <- !app_assoc.
    assert (forall X, lex1 (lit "<!DOCTYPE" ++ X) = match cut (lit ">") X with Some (_, r) => Some (Some TDoctype, r) | None => None end) as -> by (intros X; reflexivity).
    rewrite (cut_lit ">" 62 []); [reflexivity|reflexivity|intros []|now apply free_of_char].
  - rewrite <- !app_assoc.
    assert (forall X, lex1 (lit "</" ++ X) = let '(n, r) := span name_char X in
      if is_name n then match starts (lit ">") (skip_space r) with Some r => Some (Some (TEnd n), r) | None => None end else None) as -> by (intros X; reflexivity).
    rewrite (span_app name_char n); [|now apply xml_name_chars|].
    2:{ destruct w as [|x w]; [reflexivity|]. cbn [app]. apply space_not_name. inversion Hw. now apply xml_space_iff. }
    rewrite (proj2 (xml_name_iff n) Hn), (skip_complete w); [|exact Hw|reflexivity]. now rewrite starts_app.
  - rewrite <- !app_assoc. pose proof (xml_name_chars n Hn) as Hch. pose proof (proj2 (xml_name_iff n) Hn) as Hnm.
    assert (span name_char (n ++ t ++ tag_end e ++ r) = (n, t ++ tag_end e ++ r)) as Hspan.
    { apply span_app; [exact Hch|]. destruct Ha as [w Hw|w k w1 w2 q raw v t l Hw Hne].
      - destruct w as [|x w]; [destruct e; reflexivity|]. cbn [app]. apply space_not_name. inversion Hw. now apply xml_space_iff.
      - destruct w as [|x w]; [congruence|]. cbn [app]. apply space_not_name. inversion Hw. now apply xml_space_iff. }
    assert (attributes (List.length (t ++ tag_end e ++ r)) (t ++ tag_end e ++ r) = Some (a, e, r)) as Hat.
    { apply attributes_complete; [exact Ha|]. rewrite !app_length. pose proof (attributes_count t a Ha). destruct e; cbn; lia. }
    destruct Hn as (c & n' & -> & Hc & Hn').
    assert (33 =? c = false) as E33 by (apply N.eqb_neq; unfold name_first in Hc; lia).
    assert (63 =? c = false) as E63 by (apply N.eqb_neq; unfold name_first in Hc; lia).
    assert (47 =? c = false) as E47 by (apply N.eqb_neq; unfold name_first in Hc; lia).
    change (lit "<" ++ (c :: n') ++ t ++ tag_end e ++ r) with (60 :: (c :: n') ++ t ++ tag_end e ++ r). unfold lex1. change (60 =? 60) with true. cbn iota.
    assert (forall X, starts (lit "<!--") (60 :: (c :: n') ++ X) = None) as -> by (intros X; cbn -[N.eqb]; now rewrite E33).
    assert (forall X, starts (lit "<![CDATA[") (60 :: (c :: n') ++ X) = None) as -> by (intros X; cbn -[N.eqb]; now rewrite E33).
    assert (forall X, starts (lit "<?") (60 :: (c :: n') ++ X) = None) as -> by (intros X; cbn -[N.eqb]; now rewrite E63).
    assert (forall X, starts (lit "<!DOCTYPE") (60 :: (c :: n') ++ X) = None) as -> by (intros X; cbn -[N.eqb]; now rewrite E33).
    assert (forall X, starts (lit "</") (60 :: (c :: n') ++ X) = None) as -> by (intros X; cbn -[N.eqb]; now rewrite E47).
    cbn [tl]. now rewrite Hspan, Hnm, Hat.
Qed.
Lemma lex1_sound s o r : lex1 s = Some (o, r) -> exists p, s = p ++ r /\ piece p o /\ stops o r.
Proof.
  intros H. destruct s as [|c s]; [discriminate|]. destruct (N.eqb_spec c 60) as [->|Nc].
  - unfold lex1 in H. change (60 =? 60) with true in H. cbn iota in H.
    destruct (starts (lit "<!--") (60 :: s)) as [r0|] eqn:E1.
    { apply starts_sound in E1. rewrite E1. destruct (cut (lit "-->") r0) as [[u r1]|] eqn:C; [|discriminate]. injection H as <- <-.
      apply cut_sound in C as [[-> Hu]|(? & _)]; [|discriminate]. exists (lit "<!--" ++ u ++ lit "-->"). rewrite <- !app_assoc.
      split; [reflexivity|]. split; [|exact I]. constructor. left. eauto. }
    destruct (starts (lit "<![CDATA[") (60 :: s)) as [r0|] eqn:E2.
    { apply starts_sound in E2. rewrite E2. destruct (cut (lit "]]>") r0) as [[u r1]|] eqn:C; [|discriminate]. injection H as <- <-.
      apply cut_sound in C as [[-> Hu]|(? & _)]; [|discriminate]. exists (lit "<![CDATA[" ++ u ++ lit "]]>"). rewrite <- !app_assoc.
      split; [reflexivity|]. split; [|exact I]. now constructor. }
    destruct (starts (lit "<?") (60 :: s)) as [r0|] eqn:E3.
    { apply starts_sound in E3. rewrite E3. destruct (cut (lit "?>") r0) as [[u r1]|] eqn:C; [|discriminate]. injection H as <- <-.
      apply cut_sound in C as [[-> Hu]|(? & _)]; [|discriminate]. exists (lit "<?" ++ u ++ lit "?>"). rewrite <- !app_assoc.
      split; [reflexivity|]. split; [|exact I]. constructor. right. eauto. }
    destruct (starts (lit "<!DOCTYPE") (60 :: s)) as [r0|] eqn:E4.
    { apply starts_sound in E4. rewrite E4. destruct (cut (lit ">") r0) as [[u r1]|] eqn:C; [|discriminate]. injection H as <- <-.
      apply cut_sound in C as [[-> Hu]|(? & _)]; [|discriminate]. exists (lit "<!DOCTYPE" ++ u ++ lit ">"). rewrite <- !app_assoc.
      split; [reflexivity|]. split; [|exact I]. constructor. now apply free_of_char. }
    destruct (starts (lit "</") (60 :: s)) as [r0|] eqn:E5.
    { apply starts_sound in E5. rewrite E5. destruct (span name_char r0) as [n r1] eqn:S. apply span_sound in S as (-> & _ & _).
      destruct (is_name n) eqn:Hn; [|discriminate]. apply xml_name_iff in Hn.
      destruct (starts (lit ">") (skip_space r1)) as [r2|] eqn:E6; [|discriminate]. injection H as <- <-. apply starts_sound in E6. apply skip_sound in E6 as (w & -> & Hw).
      exists (lit "</" ++ n ++ w ++ lit ">"). rewrite <- !app_assoc. split; [reflexivity|]. split; [|exact I]. now constructor. }
    cbn [tl] in H. destruct (span name_char s) as [n r1] eqn:S. apply span_sound in S as (-> & _ & _).
    destruct (is_name n) eqn:Hn; [|discriminate]. apply xml_name_iff in Hn.
    destruct (attributes (List.length r1) r1) as [[[a e] r2]|] eqn:A; [|discriminate]. injection H as <- <-. apply attributes_sound in A as (t & -> & Ht).
    exists (lit "<" ++ n ++ t ++ tag_end e). split; [|split; [now constructor|exact I]]. rewrite <- !app_assoc. reflexivity.
  - destruct (span (fun c => negb (c =? 60)) (c :: s)) as [raw r0] eqn:S. pose proof S as S'. apply span_sound in S' as (E & Hr & Hstop).
    assert (r0 = [] \/ opens r0) as Hs.
    { destruct r0 as [|x r0]; [now left|]. right. apply negb_false_iff, N.eqb_eq in Hstop as ->. now exists r0. }
    assert (raw <> []) as Hne. { intros ->. cbn [app] in E. subst r0. apply negb_false_iff, N.eqb_eq in Hstop. contradiction. }
    rewrite E in H. rewrite lex1_run in H by assumption. rewrite E. destruct (forallb xml_space raw) eqn:F.
    + injection H as <- <-. exists raw. split; [reflexivity|]. split; [|exact Hs]. constructor; [exact Hne|now apply blanks_forallb].
    + destruct (unescape None raw) as [t|] eqn:U; [|discriminate]. injection H as <- <-. exists raw. split; [reflexivity|]. split; [|exact Hs].
      constructor; [|intros B; apply blanks_forallb in B; congruence]. apply spells_sound; [exact U|]. intros I60. rewrite Forall_forall in Hr. now specialize (Hr 60 I60).
Qed.
Lemma piece_nonempty p o : piece p o -> p <> [].
Proof.
  intros H. destruct H as [w Hne|raw s _ Hb|s|t Ht|u|n w|n t a e]; try discriminate; [exact Hne|intros ->; apply Hb; constructor|].
  destruct Ht as [(u & -> & _)|(u & -> & _)]; discriminate.
Qed.
(** Texts of lists of tokens. *)
Inductive pieces : str -> list token -> Prop :=
| pieces_nil : pieces [] []
| pieces_cons p o r ts : piece p o -> stops o r -> pieces r ts -> pieces (p ++ r) (match o with Some t => t :: ts | None => ts end).
Lemma lex_complete s ts : pieces s ts -> forall fuel, (List.length s <= fuel)%nat -> lex fuel s = Some ts.
Proof.
  induction 1 as [|p o r ts H1 H2 _ IH]; intros fuel Hf; [now destruct fuel|]. pose proof (piece_nonempty _ _ H1) as Hne. pose proof (lex1_complete p o r H1 H2) as HL.
  destruct p as [|c p]; [congruence|]. cbn [app] in *. destruct fuel as [|fuel]; [cbn in Hf; lia|]. cbn [lex]. rewrite HL, IH; [reflexivity|].
  cbn in Hf. rewrite app_length in Hf. lia.
Qed.
Lemma lex_sound fuel s ts : lex fuel s = Some ts -> pieces s ts.
Proof.
  revert s ts. induction fuel as [|fuel IH]; intros s ts H; (destruct s as [|c s]; [injection H as <-; constructor|]); [discriminate|]. cbn [lex] in H.
  destruct (lex1 (c :: s)) as [[o r]|] eqn:E; [|discriminate]. destruct (lex fuel r) as [ts'|] eqn:E'; [|discriminate].
  apply lex1_sound in E as (p & -> & H1 & H2). assert (ts = match o with Some t => t :: ts' | None => ts' end) as -> by (destruct o; now injection H). now constructor; [| |apply IH].
Qed.

(** * Trees *)
Inductive Tree : list token -> element -> Prop :=
| Tree_empty n a : Tree [TStart n a true] (Element n a [])
| Tree_full n a ts l : Forest ts l -> Tree (TStart n a false :: ts ++ [TEnd n]) (Element n a l)
with Forest : list token -> list node -> Prop :=
| Forest_nil : Forest [] []
| Forest_element ts e ts' l : Tree ts e -> Forest ts' l -> Forest (ts ++ ts') (NElem e :: l)
| Forest_text s ts l : Forest ts l -> Forest (TText s :: ts) (NText s :: l)
| Forest_cdata s ts l : Forest ts l -> Forest (TCData s :: ts) (NCData s :: l)
| Forest_other ts l : Forest ts l -> Forest (TOther :: ts) (NOther :: l).
Scheme tree_ind2 := Minimality for Tree Sort Prop with forest_ind2 := Minimality for Forest Sort Prop.
Combined Scheme tree_forest from tree_ind2, forest_ind2.
Scheme element_ind3 := Minimality for element_text Sort Prop with content_ind3 := Minimality for content Sort Prop with markup_ind3 := Minimality for markup Sort Prop.
Combined Scheme grammar_ind from element_ind3, content_ind3, markup_ind3.

Lemma aside_opens t : aside t -> opens t.
Proof. intros [(u & -> & _)|(u & -> & _)]; eexists; reflexivity. Qed.
Lemma opens_app s r : opens s -> opens (s ++ r).
Proof. intros [t ->]. exists (t ++ r). reflexivity. Qed.
Lemma pieces_blank w r ts : blanks w -> (r = [] \/ opens r) -> pieces r ts -> pieces (w ++ r) ts.
Proof. intros Hw Hr H. destruct w as [|c w]; [exact H|]. apply (pieces_cons (c :: w) None r ts); [now constructor|exact Hr|exact H]. Qed.
Lemma pieces_token p t r ts : piece p (Some t) -> stops (Some t) r -> pieces r ts -> pieces (p ++ r) (t :: ts).
Proof. intros H1 H2 H3. exact (pieces_cons p (Some t) r ts H1 H2 H3). Qed.

Lemma grammar_tokens :
  (forall t e, element_text t e -> opens t /\ exists ts, Tree ts e /\ forall r tr, pieces r tr -> pieces (t ++ r) (ts ++ tr)) /\
  (forall t l, content t l -> exists ts, Forest ts l /\ forall r tr, opens r -> pieces r tr -> pieces (t ++ r) (ts ++ tr)) /\
  (forall t l, markup t l -> (t = [] \/ opens t) /\ exists ts, Forest ts l /\ forall r tr, opens r -> pieces r tr -> pieces (t ++ r) (ts ++ tr)).
Proof.
  apply grammar_ind.
  - intros n t a Hn Ha. split; [eexists; reflexivity|]. exists [TStart n a true]. split; [constructor|]. intros r tr H.
    apply (pieces_token (lit "<" ++ n ++ t ++ tag_end true)); [now constructor|exact I|exact H].
  - intros n t a c l w Hn Ha _ (ts & HF & HP) Hw. split; [eexists; reflexivity|]. exists (TStart n a false :: ts ++ [TEnd n]). split; [now constructor|]. intros r tr H.
    cbn [app]. rewrite <- !app_assoc. cbn [app].
    assert (pieces ((lit "<" ++ n ++ t ++ tag_end false) ++ c ++ (lit "</" ++ n ++ w ++ lit ">") ++ r) (TStart n a false :: ts ++ TEnd n :: tr)) as X.
    { apply pieces_token; [now constructor|exact I|]. apply HP; [eexists; reflexivity|]. apply pieces_token; [now constructor|exact I|exact H]. }
    rewrite <- !app_assoc in X. exact X.
  - intros w t l Hw _ (Ho & ts & HF & HP). exists ts. split; [exact HF|]. intros r tr Hr H. rewrite <- app_assoc. apply pieces_blank; [exact Hw| |now apply HP].
    right. destruct Ho as [->|Ho]; [exact Hr|now apply opens_app].
  - intros raw s t l Hs Hb _ (Ho & ts & HF & HP). exists (TText s :: ts). split; [now constructor|]. intros r tr Hr H. rewrite <- app_assoc. cbn [app].
    apply pieces_token; [now constructor| |now apply HP]. right. destruct Ho as [->|Ho]; [exact Hr|now apply opens_app].
  - split; [now left|]. exists []. split; [constructor|]. intros r tr _ H. exact H.
  - intros t e c l _ (Ho & ts & HT & HP) _ (ts' & HF & HP'). split; [right; now apply opens_app|]. exists (ts ++ ts'). split; [now constructor|].
    intros r tr Hr H. rewrite <- !app_assoc. apply HP, HP'; assumption.
  - intros s c l Hs _ (ts & HF & HP). split; [right; eexists; reflexivity|]. exists (TCData s :: ts). split; [now constructor|]. intros r tr Hr H.
    assert (pieces ((lit "<![CDATA[" ++ s ++ lit "]]>") ++ c ++ r) (TCData s :: ts ++ tr)) as X by (apply pieces_token; [now constructor|exact I|now apply HP]).
    rewrite <- !app_assoc in *. exact X.
  - intros t c l Ht _ (ts & HF & HP). split; [right; now apply opens_app, aside_opens|]. exists (TOther :: ts). split; [now constructor|]. intros r tr Hr H.
    rewrite <- app_assoc. cbn [app]. apply pieces_token; [now constructor|exact I|now apply HP].
Qed.

Lemma text_not_opens raw s r : spells raw s -> ~ blanks raw -> ~ opens (raw ++ r).
Proof.
  intros H Hb [t E]. apply spells_run in H. destruct raw as [|c raw]; [apply Hb; constructor|]. cbn [app] in E. injection E as -> _.
  inversion H as [|x l Hc _]. discriminate.
Qed.
Lemma pieces_inv s x ts : pieces s (x :: ts) -> exists w p r, s = w ++ p ++ r /\ blanks w /\ piece p (Some x) /\ stops (Some x) r /\ pieces r ts /\ (w = [] \/ opens p).
Proof.
  intros H. remember (x :: ts) as l eqn:E. revert E. induction H as [|p o r ts' H1 H2 H3 IH]; intros E; [discriminate|]. destruct o as [y|].
  - injection E as -> ->. exists [], p, r. split; [reflexivity|]. split; [constructor|]. auto.
  - destruct (IH E) as (w & q & r' & -> & Hw & Hq & Hs & Hr & Ho). assert (blanks p) as Hp by now inversion H1.
    assert (w = []) as ->.
    { destruct w as [|c w]; [reflexivity|]. exfalso. destruct H2 as [H2|[u H2]]; [discriminate|]. injection H2 as -> _. inversion Hw as [|c' l' Hc _]. unfold blank in Hc. lia. }
    exists p, q, r'. split; [reflexivity|]. do 4 (split; [assumption|]). right. cbn [app] in H2. pose proof (piece_nonempty _ _ Hq) as Hne. destruct q as [|c q]; [congruence|].
    destruct H2 as [H2|[u H2]]; [discriminate|]. injection H2 as -> _. now exists q.
Qed.
Lemma pieces_end s : pieces s [] -> blanks s.
Proof.
  intros H. remember [] as l eqn:E. revert E. induction H as [|p o r ts H1 H2 H3 IH]; intros E; [constructor|]. destruct o as [y|]; [discriminate|].
  inversion H1 as [w _ Hw| | | | | |]. subst. apply Forall_app. split; [exact Hw|now apply IH].
Qed.
Lemma content_markup c l r : content c l -> (c ++ r = [] \/ opens (c ++ r)) -> markup c l.
Proof.
  intros H Ho. destruct H as [w t l Hw Hm|raw s t l Hs Hb Hm].
  - destruct w as [|x w]; [exact Hm|]. exfalso. destruct Ho as [Ho|[u Ho]]; [discriminate|]. injection Ho as -> _. inversion Hw as [|c' l' Hc _]. unfold blank in Hc. lia.
  - exfalso. rewrite <- app_assoc in Ho. destruct Ho as [Ho|Ho].
    + destruct raw; [apply Hb; constructor|discriminate].
    + exact (text_not_opens raw s _ Hs Hb Ho).
Qed.
Lemma token_grammar :
  (forall ts e, Tree ts e -> forall s tr, pieces s (ts ++ tr) -> exists w m r, s = w ++ m ++ r /\ blanks w /\ element_text m e /\ pieces r tr) /\
  (forall ts l, Forest ts l -> forall s n tr, pieces s (ts ++ TEnd n :: tr) -> exists c r, s = c ++ r /\ content c l /\ opens r /\ pieces r (TEnd n :: tr)).
Proof.
  apply tree_forest.
  - intros n a s tr H. cbn [app] in H. apply pieces_inv in H as (w & p & r & -> & Hw & Hp & _ & Hr & _). exists w, p, r.
    split; [reflexivity|]. split; [exact Hw|]. split; [|exact Hr]. inversion Hp; subst. now constructor.
  - intros n a ts l _ IH s tr H. cbn [app] in H. rewrite <- app_assoc in H. apply pieces_inv in H as (w & p & r & -> & Hw & Hp & _ & Hr & _).
    apply IH in Hr as (c & r' & -> & Hc & Ho & Hr'). apply pieces_inv in Hr' as (w' & p' & r'' & -> & Hw' & Hp' & _ & Hr'' & _).
    assert (w' = []) as ->.
    { destruct w' as [|x w']; [reflexivity|]. exfalso. destruct Ho as [u Ho]. injection Ho as -> _. inversion Hw' as [|c' l' Hx _]. unfold blank in Hx. lia. }
    exists w, (p ++ c ++ p'), r''. split; [now rewrite <- !app_assoc|]. split; [exact Hw|]. split; [|exact Hr''].
    inversion Hp; subst. inversion Hp'; subst. rewrite <- !app_assoc. now constructor.
  - intros s n tr H. cbn [app] in H. pose proof H as H'. apply pieces_inv in H' as (w & p & r & -> & Hw & Hp & _ & Hr & _). exists w, (p ++ r).
    split; [reflexivity|]. split; [rewrite <- (app_nil_r w); constructor; [exact Hw|constructor]|]. split; [inversion Hp; eexists; reflexivity|].
    apply pieces_token; [exact Hp|exact I|exact Hr].
  - intros ts e ts' l _ IH1 _ IH2 s n tr H. rewrite <- app_assoc in H. apply IH1 in H as (w & m & r & -> & Hw & Hm & Hr).
    apply IH2 in Hr as (c & r' & -> & Hc & Ho & Hr'). exists (w ++ m ++ c), r'. split; [now rewrite <- !app_assoc|]. split; [|auto]. constructor; [exact Hw|]. now constructor.
  - intros x ts l _ IH s n tr H. cbn [app] in H. apply pieces_inv in H as (w & p & r & -> & Hw & Hp & Hs & Hr & Hwo).
    apply IH in Hr as (c & r' & -> & Hc & Ho & Hr'). inversion Hp as [|raw y Hsp Hb| | | | |]; subst.
    assert (w = []) as ->. { destruct Hwo as [Hwo|Hwo]; [exact Hwo|]. exfalso. apply (text_not_opens p x [] Hsp Hb). now rewrite app_nil_r. }
    exists (p ++ c), r'. split; [cbn [app]; now rewrite <- !app_assoc|]. split; [|auto]. constructor; [exact Hsp|exact Hb|]. exact (content_markup c l r' Hc Hs).
  - intros x ts l _ IH s n tr H. cbn [app] in H. apply pieces_inv in H as (w & p & r & -> & Hw & Hp & Hs & Hr & Hwo).
    apply IH in Hr as (c & r' & -> & Hc & Ho & Hr'). inversion Hp as [| |y Hy| | | |]; subst.
    exists (w ++ lit "<![CDATA[" ++ x ++ lit "]]>" ++ c), r'. split; [now rewrite <- !app_assoc|]. split; [|auto]. constructor; [exact Hw|]. now constructor.
  - intros ts l _ IH s n tr H. cbn [app] in H. apply pieces_inv in H as (w & p & r & -> & Hw & Hp & Hs & Hr & Hwo).
    apply IH in Hr as (c & r' & -> & Hc & Ho & Hr'). inversion Hp as [| | |y Hy| | |]; subst.
    exists (w ++ p ++ c), r'. split; [now rewrite <- !app_assoc|]. split; [|auto]. constructor; [exact Hw|]. now constructor.
Qed.

(** * Elements under way *)
Lemma build_forest :
  (forall ts e, Tree ts e -> forall n a c st tr, build ((n, a, c) :: st) (ts ++ tr) = build ((n, a, NElem e :: c) :: st) tr) /\
  (forall ts l, Forest ts l -> forall n a c st tr, build ((n, a, c) :: st) (ts ++ tr) = build ((n, a, rev l ++ c) :: st) tr).
Proof.
  apply tree_forest; [reflexivity| |reflexivity| | | |].
  - intros n a ts l _ IH n' a' c st tr. cbn [app build]. rewrite <- app_assoc, IH. cbn [app build]. now rewrite str_eqb_refl, app_nil_r, rev_involutive.
  - intros ts e ts' l _ IH1 _ IH2 n a c st tr. rewrite <- app_assoc, IH1, IH2. cbn [rev]. now rewrite <- app_assoc.
  - intros s ts l _ IH n a c st tr. cbn [app build]. rewrite IH. cbn [rev]. now rewrite <- app_assoc.
  - intros s ts l _ IH n a c st tr. cbn [app build]. rewrite IH. cbn [rev]. now rewrite <- app_assoc.
  - intros ts l _ IH n a c st tr. cbn [app build]. rewrite IH. cbn [rev]. now rewrite <- app_assoc.
Qed.
Lemma build_tree ts e tr : Tree ts e -> Forall (fun t => t = TOther) tr -> build [] (ts ++ tr) = Some e.
Proof.
  intros H Ho. assert (forallb is_other tr = true) as Ho'. { apply forallb_forall. rewrite Forall_forall in Ho. intros x Hx. now rewrite (Ho x Hx). }
  destruct H as [n a|n a ts l H]; cbn [app build].
  - now rewrite Ho'.
  - rewrite <- app_assoc, (proj2 build_forest ts l H). cbn [app build]. now rewrite str_eqb_refl, Ho', app_nil_r, rev_involutive.
Qed.
Lemma others tr : forallb is_other tr = true -> Forall (fun t => t = TOther) tr.
Proof. intros H. apply Forall_forall. rewrite forallb_forall in H. intros x Hx. specialize (H x Hx). now destruct x. Qed.
(** What the rest of the tokens has to be. *)
Inductive Closes : list frame -> list token -> element -> Prop :=
| Closes_last n a c ts l tr : Forest ts l -> Forall (fun t => t = TOther) tr ->
    Closes [(n, a, c)] (ts ++ TEnd n :: tr) (Element n a (rev c ++ l))
| Closes_more n a c n2 a2 c2 st ts l tr e : Forest ts l -> Closes ((n2, a2, NElem (Element n a (rev c ++ l)) :: c2) :: st) tr e ->
    Closes ((n, a, c) :: (n2, a2, c2) :: st) (ts ++ TEnd n :: tr) e.
Lemma closes_cons x node n a c st ts e : (forall ts' l, Forest ts' l -> Forest (x ++ ts') (node :: l)) ->
  Closes ((n, a, node :: c) :: st) ts e -> Closes ((n, a, c) :: st) (x ++ ts) e.
Proof.
  intros Hx H. inversion H as [n' a' c' ts' l tr HF HO E1 E2 E3|n' a' c' n2 a2 c2 st' ts' l tr e' HF HC E1 E2 E3]; subst; cbn [rev] in *; rewrite <- app_assoc in *; rewrite app_assoc.
  - apply (Closes_last n a c (x ++ ts') (node :: l)); auto.
  - apply (Closes_more n a c n2 a2 c2 st' (x ++ ts') (node :: l)); auto.
Qed.
Lemma build_closes ts : forall st e, build st ts = Some e ->
  match st with
  | [] => exists pre tree post, ts = pre ++ tree ++ post /\ Forall (fun t => t = TOther \/ t = TDoctype) pre /\ Tree tree e /\ Forall (fun t => t = TOther) post
  | _ => Closes st ts e
  end.
Proof.
  induction ts as [|t ts IH]; intros st e H; [discriminate|]. cbn [build] in H. destruct st as [|[[n' a'] c] st].
  - destruct t as [n a ends|n|s|s| |]; try discriminate.
    + destruct ends.
      * destruct (forallb is_other ts) eqn:O; [|discriminate]. injection H as <-. exists [], [TStart n a true], ts. split; [reflexivity|]. split; [constructor|]. split; [constructor|now apply others].
      * apply IH in H. inversion H as [n' a' c' ts' l tr HF HO|]; subst. exists [], (TStart n a false :: ts' ++ [TEnd n]), tr.
        split; [cbn [app]; now rewrite <- app_assoc|]. split; [constructor|]. split; [now constructor|exact HO].
    + apply IH in H as (pre & tree & post & -> & H1 & H2 & H3). exists (TOther :: pre), tree, post. split; [reflexivity|]. auto.
    + apply IH in H as (pre & tree & post & -> & H1 & H2 & H3). exists (TDoctype :: pre), tree, post. split; [reflexivity|]. auto.
  - destruct t as [n a ends|n|s|s| |]; try discriminate.
    + destruct ends.
      * apply IH in H. apply (closes_cons [TStart n a true] (NElem (Element n a []))); [|exact H]. intros ts' l HF. constructor; [constructor|exact HF].
      * apply IH in H. inversion H as [|n1 a1 c1 n2 a2 c2 st' ts' l tr e' HF HC E1 E2 E3]; subst. cbn [rev app] in HC.
        apply (closes_cons (TStart n a false :: ts' ++ [TEnd n])) in HC; [|intros ts'' l' HF'; constructor; [now constructor|exact HF']].
        cbn [app] in HC. now rewrite <- app_assoc in HC.
    + destruct (str_eqb n n') eqn:E; [|discriminate]. apply str_eqb_eq in E as ->. destruct st as [|[[n2 a2] c2] st].
      * destruct (forallb is_other ts) eqn:O; [|discriminate]. injection H as <-. rewrite <- (app_nil_r (rev c)). apply (Closes_last n' a' c [] []); [constructor|now apply others].
      * apply IH in H. apply (Closes_more n' a' c n2 a2 c2 st [] []); [constructor|]. now rewrite app_nil_r.
    + apply IH in H. apply (closes_cons [TText s] (NText s)); [|exact H]. intros ts' l HF. now constructor.
    + apply IH in H. apply (closes_cons [TCData s] (NCData s)); [|exact H]. intros ts' l HF. now constructor.
    + apply IH in H. apply (closes_cons [TOther] NOther); [|exact H]. intros ts' l HF. now constructor.
Qed.

(** * Documents *)
Lemma before_app b w : before b -> blanks w -> before (b ++ w).
Proof.
  induction 1 as [w' Hw'|w' t b Hw' Ht _ IH|w' u b Hw' Hu _ IH]; intros Hw.
  - constructor. apply Forall_app. now split.
  - rewrite <- !app_assoc. apply before_aside; auto.
  - rewrite <- !app_assoc. apply before_doctype; auto.
Qed.
Lemma before_complete b : before b -> forall r tr, opens r -> pieces r tr ->
  exists pre, pieces (b ++ r) (pre ++ tr) /\ Forall (fun t => t = TOther \/ t = TDoctype) pre.
Proof.
  induction 1 as [w Hw|w t b Hw Ht _ IH|w u b Hw Hu _ IH]; intros r tr Hr H.
  - exists []. split; [|constructor]. apply pieces_blank; auto.
  - destruct (IH r tr Hr H) as (pre & HP & HF). exists (TOther :: pre). split; [|auto]. rewrite <- !app_assoc. apply pieces_blank; [exact Hw|right; now apply opens_app, aside_opens|].
    apply pieces_token; [now constructor|exact I|exact HP].
  - destruct (IH r tr Hr H) as (pre & HP & HF). exists (TDoctype :: pre). split; [|auto]. rewrite <- !app_assoc. apply pieces_blank; [exact Hw|right; eexists; reflexivity|].
    pose proof (pieces_token (lit "<!DOCTYPE" ++ u ++ lit ">") TDoctype (b ++ r) (pre ++ tr) (piece_doctype u Hu) I HP) as X. rewrite <- !app_assoc in X. exact X.
Qed.
Lemma before_sound pre : Forall (fun t => t = TOther \/ t = TDoctype) pre -> forall s tr, pieces s (pre ++ tr) -> exists b r, s = b ++ r /\ before b /\ pieces r tr.
Proof.
  induction 1 as [|t pre Ht _ IH]; intros s tr H; [exists [], s; split; [reflexivity|]; split; [constructor; constructor|exact H]|].
  cbn [app] in H. apply pieces_inv in H as (w & p & r & -> & Hw & Hp & _ & Hr & _). apply IH in Hr as (b & r' & -> & Hb & Hr').
  exists (w ++ p ++ b), r'. split; [now rewrite <- !app_assoc|]. split; [|exact Hr']. destruct Ht as [->| ->]; inversion Hp; subst.
  - now apply before_aside.
  - rewrite <- !app_assoc. now apply before_doctype.
Qed.
Lemma after_complete a : after a -> exists post, pieces a post /\ Forall (fun t => t = TOther) post.
Proof.
  induction 1 as [w Hw|w t b Hw Ht _ (post & HP & HF)].
  - exists []. split; [|constructor]. rewrite <- (app_nil_r w). apply pieces_blank; [exact Hw|now left|constructor].
  - exists (TOther :: post). split; [|auto]. apply pieces_blank; [exact Hw|right; now apply opens_app, aside_opens|]. apply pieces_token; [now constructor|exact I|exact HP].
Qed.
Lemma after_sound post : Forall (fun t => t = TOther) post -> forall s, pieces s post -> after s.
Proof.
  induction 1 as [|t post -> _ IH]; intros s H; [constructor; now apply pieces_end|].
  apply pieces_inv in H as (w & p & r & -> & Hw & Hp & _ & Hr & _). inversion Hp; subst. apply after_aside; auto.
Qed.
Lemma parse_document t e : parse_xml t = Some e <-> document t e.
Proof.
  unfold parse_xml, document. split.
  - destruct (forallb xml_char t) eqn:C; [|discriminate]. destruct (lex (List.length t) t) as [ts|] eqn:X; [|discriminate]. intros H. split.
    + apply Forall_forall. rewrite forallb_forall in C. intros c Hc. apply xml_char_iff; auto.
    + apply lex_sound in X. apply build_closes in H as (pre & tree & post & -> & H1 & H2 & H3).
      apply (before_sound pre H1) in X as (b & r & -> & Hb & Hr). apply (proj1 token_grammar tree e H2) in Hr as (w & m & r' & -> & Hw & Hm & Hr').
      exists (b ++ w), m, r'. split; [now rewrite <- app_assoc|]. split; [now apply before_app|]. split; [exact Hm|]. now apply (after_sound post).
  - intros (C & b & m & a & -> & Hb & Hm & Ha). assert (forallb xml_char (b ++ m ++ a) = true) as ->.
    { apply forallb_forall. rewrite Forall_forall in C. intros c Hc. now apply xml_char_iff, C. }
    destruct (after_complete a Ha) as (post & HP & HF). destruct (proj1 grammar_tokens m e Hm) as (Ho & ts & HT & HM).
    destruct (before_complete b Hb (m ++ a) (ts ++ post) (opens_app _ _ Ho) (HM _ _ HP)) as (pre & HB & HBF).
    rewrite (lex_complete _ _ HB _ (le_n _)). clear - HBF HT HF. induction HBF as [|t pre Ht _ IH]; [exact (build_tree ts e post HT HF)|].
    destruct Ht as [->| ->]; exact IH.
Qed.
