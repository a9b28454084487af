(** Facts on XML text: what is printed is parsed back. *)
Require Import Coq.Strings.String Coq.Lists.List Coq.Arith.Arith Coq.NArith.NArith Coq.Bool.Bool Coq.micromega.Lia.
Require Import Verif.Model.Base Verif.Model.Text Verif.Model.Xml Verif.Model.XmlText Verif.Spec.XmlTextSpec Verif.Facts.NamesFacts.
Import ListNotations.
Local Open Scope N_scope.

Lemma element_nested (Q : element -> Prop) :
  (forall n a ch, (forall e, In (NElem e) ch -> Q e) -> Q (Element n a ch)) -> forall e, Q e.
Proof.
  intros H. fix F 1. intros [n a ch]. apply H.
  induction ch as [|x t IH]; intros e He; [destruct He|]. destruct x as [x|s|s|]; (destruct He as [He|He]; [|now apply IH]); try discriminate.
  apply (f_equal (fun m => match m with NElem y => y | _ => e end)) in He. cbn in He. rewrite <- He. apply F.
Qed.

(** ** The nested loops *)
Lemma emit_eq level n a ch : emit level (Element n a ch) =
  60 :: n ++ flat_map emit_attr a ++
  match ch with [] => lit "/>" | _ => 62 :: emit_nodes (emit (S level)) level false ch ++ lit "</" ++ n ++ [62] end.
Proof. reflexivity. Qed.

Definition blankb (s : str) : bool := forallb xml_space s.
Definition unblank_nodes (sub : element -> element) : list node -> list node :=
  fix go (l : list node) : list node :=
    match l with
    | [] => []
    | NElem e :: t => NElem (sub e) :: go t
    | NText s :: t => if blankb s then go t else NText s :: go t
    | x :: t => x :: go t
    end.
Fixpoint unblank (e : element) : element := let 'Element n a ch := e in Element n a (unblank_nodes unblank ch).

Definition child_tokens (sub : element -> list token) : list node -> list token :=
  fix go (l : list node) : list token :=
    match l with
    | [] => []
    | NElem e :: t => sub e ++ go t
    | NText s :: t => (if blankb s then [] else [TText s]) ++ go t
    | NCData s :: t => TCData s :: go t
    | NOther :: t => TOther :: go t
    end.
Fixpoint tokens (e : element) : list token :=
  let 'Element n a ch := e in
  match ch with [] => [TStart n a true] | _ => TStart n a false :: child_tokens tokens ch ++ [TEnd n] end.
Lemma tokens_eq n a ch : tokens (Element n a ch) = match ch with [] => [TStart n a true] | _ => TStart n a false :: child_tokens tokens ch ++ [TEnd n] end.
Proof. reflexivity. Qed.

Lemma separate_tl x l : separate (x :: l) -> separate l.
Proof. intros H a s s' b ->. now apply (H (x :: a) s s' b). Qed.

(** ** Scanning *)
Lemma span_app f s r : Forall (fun c => f c = true) s -> (match r with [] => True | c :: _ => f c = false end) -> span f (s ++ r) = (s, r).
Proof.
  intros Hs Hr. induction Hs as [|c t Hc Ht IH]; cbn [app span].
  - destruct r as [|c r]; [reflexivity|]. cbn [span]. now rewrite Hr.
  - now rewrite Hc, IH.
Qed.
Lemma starts_app p r : starts p (p ++ r) = Some r.
Proof. induction p as [|c p IH]; [now destruct r|]. cbn. now rewrite N.eqb_refl. Qed.
Lemma cut_char q s r : ~ In q s -> cut [q] (s ++ q :: r) = Some (s, r).
Proof.
  induction s as [|c t IH]; intros H.
  - cbn. rewrite N.eqb_refl. now destruct r.
  - cbn [app cut starts]. destruct (N.eqb_spec q c) as [->|Hc]; [exfalso; apply H; now left|].
    rewrite IH; [reflexivity|]. intros X. apply H. now right.
Qed.
Lemma cut_cdata s r : (forall a b, s <> a ++ lit "]]>" ++ b) -> cut (lit "]]>") (s ++ lit "]]>" ++ r) = Some (s, r).
Proof.
  change (lit "]]>") with [93; 93; 62]. induction s as [|c t IH]; intros H.
  - cbn. now destruct r.
  - assert (starts [93; 93; 62] ((c :: t) ++ [93; 93; 62] ++ r) = None) as E.
    { cbn [app starts]. destruct (N.eqb_spec 93 c) as [<-|_]; [|reflexivity].
      destruct t as [|c2 t]; [reflexivity|]. cbn [app]. destruct (N.eqb_spec 93 c2) as [<-|_]; [|reflexivity].
      destruct t as [|c3 t]; [reflexivity|]. cbn [app]. destruct (N.eqb_spec 62 c3) as [<-|_]; [|reflexivity].
      exfalso. exact (H [] t eq_refl). }
    cbn [app] in E |- *. cbn [cut]. rewrite E. cbn [app] in IH. rewrite IH; [reflexivity|]. intros a b ->. exact (H (c :: a) b eq_refl).
Qed.

(** ** Characters *)
Lemma xml_char_iff c : xml_char c = true <-> document_char c.
Proof. unfold xml_char, document_char. rewrite !orb_true_iff, !andb_true_iff, !N.eqb_eq, !N.leb_le. tauto. Qed.
Lemma xml_space_iff c : xml_space c = true <-> blank c.
Proof. unfold xml_space, blank. rewrite !orb_true_iff, !N.eqb_eq. tauto. Qed.
Lemma blankb_iff s : blankb s = true <-> forall c, In c s -> blank c.
Proof. unfold blankb. rewrite forallb_forall. split; intros H c Hc; now apply xml_space_iff, H. Qed.
Lemma blankb_false s : blankb s = false <-> exists c, In c s /\ ~ blank c.
Proof.
  unfold blankb. induction s as [|c t IH]; cbn; [split; [discriminate|intros (c & [] & _)]|].
  destruct (xml_space c) eqn:E; cbn.
  - apply xml_space_iff in E. rewrite IH. split; intros (x & H); exists x; [tauto|]. destruct H as [[->|H] B]; [now destruct B|auto].
  - split; [|reflexivity]. intros _. exists c. split; [now left|]. intros B. apply xml_space_iff in B. congruence.
Qed.
Lemma letter_start c : letter c -> name_start c = true.
Proof. unfold letter, name_start. rewrite !orb_true_iff, !andb_true_iff, !N.eqb_eq, !N.leb_le. tauto. Qed.
Lemma letter_char c : letter c -> document_char c.
Proof. unfold letter, document_char. lia. Qed.
Lemma plain_chars s : plain_xml_name s -> Forall (fun c => name_char c = true) s.
Proof.
  intros (c & t & -> & Hc & Ht). constructor; [unfold name_char; now rewrite letter_start|].
  eapply Forall_impl; [|exact Ht]. cbn. intros d [H|H]; unfold name_char; [now rewrite letter_start|].
  rewrite !orb_true_iff, !andb_true_iff, !N.eqb_eq, !N.leb_le. tauto.
Qed.
Lemma plain_is_name s : plain_xml_name s -> is_name s = true.
Proof.
  intros H. pose proof (plain_chars s H) as F. destruct H as (c & t & -> & Hc & Ht). unfold is_name. rewrite letter_start by exact Hc.
  cbn [andb]. apply forallb_forall. now apply Forall_forall.
Qed.
Lemma plain_document s : plain_xml_name s -> Forall document_char s.
Proof.
  intros (c & t & -> & Hc & Ht). constructor; [now apply letter_char|]. eapply Forall_impl; [|exact Ht]. cbn. intros d [H|H]; [now apply letter_char|].
  unfold document_char. lia.
Qed.

(** ** Escapes *)
Ltac eqbs c := repeat match goal with |- context [c =? ?k] => destruct (N.eqb_spec c k) as [->|]; [|] end.
Lemma unescape_attr s : unescape None (flat_map esc_attr s) = Some s.
Proof.
  induction s as [|c t IH]; [reflexivity|]. cbn [flat_map]. revert IH. generalize (flat_map esc_attr t). intros R IH. unfold esc_attr.
  destruct (N.eqb_spec c 60) as [->|]; [cbn; now rewrite IH|]. destruct (N.eqb_spec c 62) as [->|]; [cbn; now rewrite IH|].
  destruct (N.eqb_spec c 34) as [->|]; [cbn; now rewrite IH|]. destruct (N.eqb_spec c 39) as [->|]; [cbn; now rewrite IH|].
  destruct (N.eqb_spec c 38) as [->|]; [cbn; now rewrite IH|]. destruct (N.eqb_spec c 10) as [->|]; [cbn; now rewrite IH|].
  destruct (N.eqb_spec c 13) as [->|]; [cbn; now rewrite IH|]. cbn [app unescape]. now rewrite (proj2 (N.eqb_neq c 38)), IH.
Qed.
Lemma unescape_text s : unescape None (flat_map esc_text s) = Some s.
Proof.
  induction s as [|c t IH]; [reflexivity|]. cbn [flat_map]. revert IH. generalize (flat_map esc_text t). intros R IH. unfold esc_text.
  destruct (N.eqb_spec c 60) as [->|]; [cbn; now rewrite IH|]. destruct (N.eqb_spec c 62) as [->|]; [cbn; now rewrite IH|].
  destruct (N.eqb_spec c 38) as [->|]; [cbn; now rewrite IH|]. cbn [app unescape]. now rewrite (proj2 (N.eqb_neq c 38)), IH.
Qed.
Lemma esc_attr_clean s : ~ In 34 (flat_map esc_attr s) /\ ~ In 60 (flat_map esc_attr s).
Proof.
  induction s as [|c t [I1 I2]]; [split; intros []|]. cbn [flat_map]. rewrite !in_app_iff. unfold esc_attr.
  destruct (N.eqb_spec c 60) as [->|]; [cbn; intuition discriminate|]. destruct (N.eqb_spec c 62) as [->|]; [cbn; intuition discriminate|].
  destruct (N.eqb_spec c 34) as [->|]; [cbn; intuition discriminate|]. destruct (N.eqb_spec c 39) as [->|]; [cbn; intuition discriminate|].
  destruct (N.eqb_spec c 38) as [->|]; [cbn; intuition discriminate|]. destruct (N.eqb_spec c 10) as [->|]; [cbn; intuition discriminate|].
  destruct (N.eqb_spec c 13) as [->|]; [cbn; intuition discriminate|]. cbn. intuition congruence.
Qed.
Lemma esc_text_clean s : Forall (fun c => negb (c =? 60) = true) (flat_map esc_text s).
Proof.
  induction s as [|c t IH]; [constructor|]. cbn [flat_map]. apply Forall_app. split; [|exact IH]. unfold esc_text.
  destruct (N.eqb_spec c 60) as [->|]; [repeat constructor|]. destruct (N.eqb_spec c 62) as [->|]; [repeat constructor|].
  destruct (N.eqb_spec c 38) as [->|]; [repeat constructor|]. constructor; [|constructor]. now rewrite (proj2 (N.eqb_neq c 60)).
Qed.
Lemma esc_text_blank s : forallb xml_space (flat_map esc_text s) = blankb s.
Proof.
  unfold blankb. induction s as [|c t IH]; [reflexivity|]. cbn [flat_map]. rewrite forallb_app, IH. cbn [forallb]. f_equal. unfold esc_text.
  destruct (N.eqb_spec c 60) as [->|]; [reflexivity|]. destruct (N.eqb_spec c 62) as [->|]; [reflexivity|].
  destruct (N.eqb_spec c 38) as [->|]; [reflexivity|]. cbn. now rewrite andb_true_r.
Qed.

(** ** Attributes *)
Lemma attributes_emitted (a : list (str * str)) ends r fuel :
  Forall (fun kv => plain_xml_name (fst kv) /\ fst kv <> lit "xmlns" /\ attribute_text (snd kv)) a -> NoDup (map fst a) ->
  (List.length a < fuel)%nat ->
  attributes fuel (flat_map emit_attr a ++ (if ends : bool then lit "/>" else lit ">") ++ r) = Some (a, ends, r).
Proof.
  intros Ha. revert fuel. induction Ha as [|[k v] a (Hk & _ & Hv) Ha IH]; intros fuel Hd Hf; (destruct fuel as [|fuel]; [cbn in Hf; lia|]).
  - destruct ends; reflexivity.
  - cbn [map fst] in Hd. inversion Hd as [|? ? Hn Hd']; subst. cbn [flat_map]. unfold emit_attr at 1. cbn [fst snd] in *.
    rewrite <- !app_assoc. cbn [app attributes].
    pose proof (plain_is_name k Hk) as Hnm. pose proof (plain_chars k Hk) as Hch. destruct Hk as (c & t & -> & Hc & Ht).
    assert (name_start c = true) as Hs by now apply letter_start.
    assert (xml_space c = false) as Hsp.
    { destruct (xml_space c) eqn:E; [|reflexivity]. apply xml_space_iff in E. unfold blank in E. unfold letter in Hc. lia. }
    cbn [app]. cbn [span]. change (xml_space 32) with true. rewrite Hsp.
    assert (47 =? c = false) as E47 by (apply N.eqb_neq; intros <-; unfold letter in Hc; lia).
    assert (62 =? c = false) as E62 by (apply N.eqb_neq; intros <-; unfold letter in Hc; lia).
    assert (forall X, starts (lit "/>") (c :: X) = None) as S1 by (intros X; cbn -[N.eqb]; now rewrite E47).
    assert (forall X, starts (lit ">") (c :: X) = None) as S2 by (intros X; cbn -[N.eqb]; now rewrite E62).
    rewrite S1, S2. rewrite <- app_assoc. cbn [app]. rewrite <- app_assoc. cbn [app].
    match goal with |- context [span name_char (c :: t ++ 61 :: ?X)] =>
      replace (span name_char (c :: t ++ 61 :: X)) with (c :: t, 61 :: X) by (symmetry; apply (span_app name_char (c :: t)); [exact Hch|reflexivity]) end.
    rewrite Hnm. cbn [negb orb].
    unfold skip_space. cbn [span]. change (xml_space 61) with false. cbn [snd].
    assert (forall X, starts (lit "=") (61 :: X) = Some X) as S3 by (intros X; reflexivity). rewrite S3. cbn [span]. change (xml_space 34) with false. cbn [snd].
    change (negb ((34 =? 34) || (34 =? 39))) with false. cbn iota.
    destruct (esc_attr_clean v) as [Q34 Q60].
    match goal with |- context [cut [34] (_ ++ 34 :: ?X)] => rewrite (cut_char 34 (flat_map esc_attr v) X Q34) end.
    assert (existsb (N.eqb 60) (flat_map esc_attr v) = false) as ->.
    { apply not_true_iff_false. rewrite existsb_exists. intros (x & Hx & E). apply N.eqb_eq in E. subst x. contradiction. }
    rewrite unescape_attr, (IH fuel Hd') by (cbn in Hf; lia).
    assert (existsb (str_eqb (c :: t)) (map fst a) = false) as ->; [|reflexivity].
    apply not_true_iff_false. rewrite existsb_exists. intros (x & Hx & E). apply str_eqb_eq in E. subst x. contradiction.
Qed.

(** ** Pieces *)
Inductive Lex : str -> list token -> Prop :=
| LexNil : Lex [] []
| LexStep s o r ts : lex1 s = Some (o, r) -> (List.length r < List.length s)%nat -> Lex r ts ->
    Lex s (match o with Some t => t :: ts | None => ts end).
Lemma Lex_lex s ts : Lex s ts -> forall fuel, (List.length s <= fuel)%nat -> lex fuel s = Some ts.
Proof.
  induction 1 as [|s o r ts H1 H2 _ IH]; intros fuel Hf; [now destruct fuel|].
  destruct s as [|c s]; [discriminate|]. destruct fuel as [|fuel]; [cbn in Hf; lia|]. cbn [lex]. rewrite H1, IH; [reflexivity|].
  cbn in Hf, H2. lia.
Qed.

Definition opens (s : str) : Prop := exists t, s = 60 :: t.

Lemma Lex_start n a ends r ts : plain_xml_name n ->
  Forall (fun kv => plain_xml_name (fst kv) /\ fst kv <> lit "xmlns" /\ attribute_text (snd kv)) a -> NoDup (map fst a) ->
  Lex r ts -> Lex (60 :: n ++ flat_map emit_attr a ++ (if ends : bool then lit "/>" else lit ">") ++ r) (TStart n a ends :: ts).
Proof.
  intros Hn Ha Hd Hr. refine (LexStep _ (Some (TStart n a ends)) r ts _ _ Hr).
  - pose proof (plain_is_name n Hn) as Hnm. pose proof (plain_chars n Hn) as Hch. destruct Hn as (c & t & -> & Hc & Ht).
    unfold lex1. change (60 =? 60) with true. cbn iota.
    assert (33 =? c = false) as E33 by (apply N.eqb_neq; intros <-; unfold letter in Hc; lia).
    assert (63 =? c = false) as E63 by (apply N.eqb_neq; intros <-; unfold letter in Hc; lia).
    assert (47 =? c = false) as E47 by (apply N.eqb_neq; intros <-; unfold letter in Hc; lia).
    assert (forall X, starts (lit "<!--") (60 :: (c :: t) ++ X) = None) as -> by (intros X; cbn -[N.eqb]; now rewrite E33).
    assert (forall X, starts (lit "<![CDATA[") (60 :: (c :: t) ++ X) = None) as -> by (intros X; cbn -[N.eqb]; now rewrite E33).
    assert (forall X, starts (lit "<?") (60 :: (c :: t) ++ X) = None) as -> by (intros X; cbn -[N.eqb]; now rewrite E63).
    assert (forall X, starts (lit "<!DOCTYPE") (60 :: (c :: t) ++ X) = None) as -> by (intros X; cbn -[N.eqb]; now rewrite E33).
    assert (forall X, starts (lit "</") (60 :: (c :: t) ++ X) = None) as -> by (intros X; cbn -[N.eqb]; now rewrite E47).
    cbn [tl].
    assert (span name_char ((c :: t) ++ flat_map emit_attr a ++ (if ends then lit "/>" else lit ">") ++ r) =
      (c :: t, flat_map emit_attr a ++ (if ends then lit "/>" else lit ">") ++ r)) as ->.
    { apply span_app; [exact Hch|]. destruct a as [|kv a]; [|reflexivity]. destruct ends; reflexivity. }
    rewrite Hnm, attributes_emitted; [reflexivity|exact Ha|exact Hd|].
    rewrite !app_length. clear. assert (List.length a <= List.length (flat_map emit_attr a))%nat.
    { induction a as [|kv a IH]; [cbn; lia|]. cbn [flat_map]. rewrite app_length. unfold emit_attr at 1. cbn [List.length]. lia. }
    destruct ends; cbn; lia.
  - cbn [List.length]. rewrite !app_length. lia.
Qed.
Lemma Lex_end n r ts : plain_xml_name n -> Lex r ts -> Lex (lit "</" ++ n ++ 62 :: r) (TEnd n :: ts).
Proof.
  intros Hn Hr. refine (LexStep _ (Some (TEnd n)) r ts _ _ Hr).
  - change (lit "</") with [60; 47]. cbn [app]. unfold lex1. change (60 =? 60) with true. cbn iota.
    assert (forall X, starts (lit "<!--") (60 :: 47 :: X) = None) as -> by (intros X; reflexivity).
    assert (forall X, starts (lit "<![CDATA[") (60 :: 47 :: X) = None) as -> by (intros X; reflexivity).
    assert (forall X, starts (lit "<?") (60 :: 47 :: X) = None) as -> by (intros X; reflexivity).
    assert (forall X, starts (lit "<!DOCTYPE") (60 :: 47 :: X) = None) as -> by (intros X; reflexivity).
    assert (forall X, starts (lit "</") (60 :: 47 :: X) = Some X) as -> by (intros X; reflexivity).
    rewrite (span_app name_char n (62 :: r) (plain_chars n Hn) eq_refl), (plain_is_name n Hn). reflexivity.
  - cbn. rewrite app_length. cbn. lia.
Qed.
Lemma Lex_cdata s r ts : (forall a b, s <> a ++ lit "]]>" ++ b) -> Lex r ts -> Lex (lit "<![CDATA[" ++ s ++ lit "]]>" ++ r) (TCData s :: ts).
Proof.
  intros Hs Hr. refine (LexStep _ (Some (TCData s)) r ts _ _ Hr).
  - assert (forall X, lex1 (lit "<![CDATA[" ++ X) = match cut (lit "]]>") X with Some (t, r) => Some (Some (TCData t), r) | None => None end) as -> by (intros X; reflexivity).
    now rewrite cut_cdata.
  - rewrite !app_length. cbn. lia.
Qed.
Lemma Lex_other r ts : Lex r ts -> Lex (lit "<!---->" ++ r) (TOther :: ts).
Proof. intros Hr. refine (LexStep _ (Some TOther) r ts _ _ Hr); [destruct r; reflexivity|]. rewrite app_length. cbn. lia. Qed.
Lemma Lex_newline l r ts : opens r -> Lex r ts -> Lex (newline l ++ r) ts.
Proof.
  intros [t ->] Hr. refine (LexStep _ None (60 :: t) ts _ _ Hr).
  - unfold newline. cbn [app]. unfold lex1. change (10 =? 60) with false. cbn iota.
    assert (Forall (fun c => xml_space c = true /\ negb (c =? 60) = true) (10 :: repeat 32 (2 * l))) as F.
    { constructor; [split; reflexivity|]. apply Forall_forall. intros x Hx. apply repeat_spec in Hx. subst x. split; reflexivity. }
    rewrite app_comm_cons, (span_app _ (10 :: repeat 32 (2 * l))); [|eapply Forall_impl; [|exact F]; cbn beta; tauto|reflexivity].
    assert (forallb xml_space (10 :: repeat 32 (2 * l)) = true) as ->; [|reflexivity].
    apply forallb_forall. intros x Hx. rewrite Forall_forall in F. now apply F.
  - unfold newline. rewrite app_length. cbn [List.length]. lia.
Qed.
Lemma Lex_text s r ts : opens r -> Lex r ts -> Lex (flat_map esc_text s ++ r) ((if blankb s then [] else [TText s]) ++ ts).
Proof.
  intros [t ->] Hr. destruct s as [|c s]; [exact Hr|].
  assert (flat_map esc_text (c :: s) <> []) as Hne.
  { cbn [flat_map]. unfold esc_text. destruct (c =? 60); [discriminate|]. destruct (c =? 62); [discriminate|]. destruct (c =? 38); discriminate. }
  pose proof (esc_text_clean (c :: s)) as Hc. pose proof (esc_text_blank (c :: s)) as Hb. pose proof (unescape_text (c :: s)) as Hu.
  revert Hne Hc Hb Hu. generalize (flat_map esc_text (c :: s)). intros raw Hne Hc Hb Hu.
  assert (lex1 (raw ++ 60 :: t) = Some (if blankb (c :: s) then None else Some (TText (c :: s)), 60 :: t)) as E.
  { destruct raw as [|d raw]; [congruence|]. cbn [app]. unfold lex1. inversion Hc as [|? ? Hd Hc']; subst. apply negb_true_iff in Hd. rewrite Hd.
    rewrite app_comm_cons, (span_app _ (d :: raw)); [|exact Hc|reflexivity]. rewrite Hb, Hu. now destruct (blankb (c :: s)). }
  assert (List.length (60%N :: t) < List.length (raw ++ 60%N :: t))%nat as Hl.
  { rewrite app_length. destruct raw; [congruence|cbn; lia]. }
  pose proof (LexStep _ _ _ ts E Hl Hr) as X. destruct (blankb (c :: s)); exact X.
Qed.

Lemma emit_opens level e r : opens (emit level e ++ r).
Proof. destruct e as [n a ch]. rewrite emit_eq. cbn [app]. eexists. reflexivity. Qed.

Lemma Lex_nodes sub subt level (ch : list node) : (forall e r ts, In (NElem e) ch -> Lex r ts -> Lex (sub e ++ r) (subt e ++ ts)) ->
  (forall e r, opens (sub e ++ r)) -> separate ch -> carried_nodes carried ch ->
  forall text r ts, opens r -> Lex r ts -> Lex (emit_nodes sub level text ch ++ r) (child_tokens subt ch ++ ts).
Proof.
  intros Hsub Hop. induction ch as [|x t IH]; intros Hsep Hleg text r ts Ho Hr; cbn [emit_nodes child_tokens].
  - destruct text; [exact Hr|]. now apply Lex_newline.
  - assert (forall e r ts, In (NElem e) t -> Lex r ts -> Lex (sub e ++ r) (subt e ++ ts)) as Hsub' by (intros e r0 ts0 Hi; apply Hsub; now right).
    specialize (IH Hsub' (separate_tl _ _ Hsep)).
    destruct x as [e|s|s|]; cbn [carried_nodes] in Hleg; rewrite <- ?app_assoc.
    + destruct Hleg as [He Ht]. assert (Lex (sub e ++ emit_nodes sub level text t ++ r) (subt e ++ child_tokens subt t ++ ts)) as X.
      { apply Hsub; [now left|]. now apply IH. }
      destruct text; [exact X|]. apply Lex_newline; [apply Hop|exact X].
    + destruct Hleg as [He Ht]. apply Lex_text; [|now apply IH]. destruct t as [|[e|s'|s'|] t]; cbn [emit_nodes].
      * exact Ho.
      * rewrite <- !app_assoc. cbn [app]. apply Hop.
      * exfalso. exact (Hsep [] s s' t eq_refl).
      * eexists. reflexivity.
      * eexists. reflexivity.
    + destruct Hleg as [[_ He] Ht]. cbn [app]. apply Lex_cdata; [exact He|]. now apply IH.
    + cbn [app]. assert (Lex (lit "<!---->" ++ emit_nodes sub level text t ++ r) (TOther :: child_tokens subt t ++ ts)) as X.
      { apply Lex_other. now apply IH. }
      destruct text; [exact X|]. apply Lex_newline; [eexists; reflexivity|exact X].
Qed.
Lemma carried_child e ch : In (NElem e) ch -> carried_nodes carried ch -> carried e.
Proof.
  induction ch as [|x t IH]; intros Hi H; [destruct Hi|]. destruct Hi as [->|Hi]; [apply H|]. apply IH; [exact Hi|]. destruct x; cbn in H; tauto.
Qed.

Lemma Lex_emit e : carried e -> forall level r ts, Lex r ts -> Lex (emit level e ++ r) (tokens e ++ ts).
Proof.
  induction e as [n a ch IH] using element_nested. intros (Hn & Ha & Hd & Hs & Hc) level r ts Hr. rewrite emit_eq, tokens_eq.
  destruct ch as [|x t] eqn:Ech.
  - cbn [app]. rewrite <- !app_assoc. apply (Lex_start n a true); assumption.
  - rewrite <- Ech in *. cbn [app]. rewrite <- !app_assoc. cbn [app]. rewrite <- !app_assoc. cbn [app].
    apply (Lex_start n a false); [exact Hn|exact Ha|exact Hd|]. cbn [app].
    apply Lex_nodes; [| |exact Hs|exact Hc| |].
    + intros e r0 ts0 Hi H0. apply IH; [exact Hi| |exact H0]. now apply (carried_child e ch).
    + intros e r0. apply emit_opens.
    + eexists. reflexivity.
    + now apply Lex_end.
Qed.

(** ** Trees *)
Lemma build_nodes ch : (forall e, In (NElem e) ch -> forall n a c st ts, build ((n, a, c) :: st) (tokens e ++ ts) = build ((n, a, NElem (unblank e) :: c) :: st) ts) ->
  forall n a c st ts, build ((n, a, c) :: st) (child_tokens tokens ch ++ ts) = build ((n, a, rev (unblank_nodes unblank ch) ++ c) :: st) ts.
Proof.
  induction ch as [|x t IH]; intros H n a c st ts; [reflexivity|].
  assert (forall e, In (NElem e) t -> forall n a c st ts, build ((n, a, c) :: st) (tokens e ++ ts) = build ((n, a, NElem (unblank e) :: c) :: st) ts) as H' by (intros e He; apply H; now right).
  destruct x as [e|s|s|]; cbn [child_tokens unblank_nodes].
  - rewrite <- app_assoc, (H e) by now left. rewrite (IH H'). cbn [rev]. now rewrite <- app_assoc.
  - destruct (blankb s); cbn [app]; [apply (IH H')|]. cbn [build]. rewrite (IH H'). cbn [rev]. now rewrite <- app_assoc.
  - cbn [app build]. rewrite (IH H'). cbn [rev]. now rewrite <- app_assoc.
  - cbn [app build]. rewrite (IH H'). cbn [rev]. now rewrite <- app_assoc.
Qed.
Lemma build_inner e : forall n a c st ts, build ((n, a, c) :: st) (tokens e ++ ts) = build ((n, a, NElem (unblank e) :: c) :: st) ts.
Proof.
  induction e as [n' a' ch IH] using element_nested. intros n a c st ts. rewrite tokens_eq. destruct ch as [|x t] eqn:Ech; [reflexivity|]. rewrite <- Ech in *.
  cbn [app build]. rewrite <- app_assoc, (build_nodes ch IH). cbn [app build]. rewrite str_eqb_refl, app_nil_r, rev_involutive. reflexivity.
Qed.
Lemma build_root e : build [] (tokens e) = Some (unblank e).
Proof.
  destruct e as [n a ch]. rewrite tokens_eq. destruct ch as [|x t] eqn:Ech; [reflexivity|]. rewrite <- Ech in *.
  cbn [app build]. rewrite (build_nodes ch (fun e _ => build_inner e)). cbn [build]. rewrite str_eqb_refl, app_nil_r, rev_involutive. reflexivity.
Qed.

(** ** Characters of the whole text *)
Lemma lit_document s : forallb xml_char (lit s) = true -> Forall document_char (lit s).
Proof. intros H. apply Forall_forall. intros c Hc. rewrite forallb_forall in H. now apply xml_char_iff, H. Qed.
Lemma esc_document f s : (forall c, document_char c -> Forall document_char (f c)) -> Forall document_char s -> Forall document_char (flat_map f s).
Proof. intros Hf. induction 1 as [|c t Hc _ IH]; [constructor|]. cbn [flat_map]. apply Forall_app. split; [now apply Hf|exact IH]. Qed.
Lemma esc_attr_document c : document_char c -> Forall document_char (esc_attr c).
Proof.
  intros H. unfold esc_attr. destruct (c =? 60); [now apply lit_document|]. destruct (c =? 62); [now apply lit_document|]. destruct (c =? 34); [now apply lit_document|].
  destruct (c =? 39); [now apply lit_document|]. destruct (c =? 38); [now apply lit_document|]. destruct (c =? 10); [now apply lit_document|].
  destruct (c =? 13); [now apply lit_document|]. now constructor.
Qed.
Lemma esc_text_document c : document_char c -> Forall document_char (esc_text c).
Proof.
  intros H. unfold esc_text. destruct (c =? 60); [now apply lit_document|]. destruct (c =? 62); [now apply lit_document|].
  destruct (c =? 38); [now apply lit_document|]. now constructor.
Qed.
Lemma newline_document l : Forall document_char (newline l).
Proof.
  unfold newline. constructor; [unfold document_char; lia|]. apply Forall_forall. intros x Hx. apply repeat_spec in Hx. subst x. unfold document_char. lia.
Qed.
Lemma emit_document e : carried e -> forall level, Forall document_char (emit level e).
Proof.
  induction e as [n a ch IH] using element_nested. intros (Hn & Ha & _ & _ & Hc) level. rewrite emit_eq.
  constructor; [unfold document_char; lia|]. apply Forall_app. split; [now apply plain_document|]. apply Forall_app. split.
  - clear - Ha. induction Ha as [|[k v] a (Hk & _ & Hv) _ IH]; [constructor|]. cbn [flat_map]. apply Forall_app. split; [|exact IH].
    unfold emit_attr. cbn [fst snd] in *. constructor; [unfold document_char; lia|]. apply Forall_app. split; [now apply plain_document|].
    constructor; [unfold document_char; lia|]. constructor; [unfold document_char; lia|]. apply Forall_app. split; [|constructor; [unfold document_char; lia|constructor]].
    apply esc_document; [exact esc_attr_document|]. eapply Forall_impl; [|exact Hv]. cbn beta. tauto.
  - destruct ch as [|x t] eqn:Ech; [now apply lit_document|]. rewrite <- Ech in *. constructor; [unfold document_char; lia|].
    apply Forall_app. split; [|apply Forall_app; split; [now apply lit_document|]; apply Forall_app; split; [now apply plain_document|]; constructor; [unfold document_char; lia|constructor]].
    assert (forall e, In (NElem e) ch -> carried e) as Hl by (intros e He; now apply (carried_child e ch)).
    clear Ech x t. generalize false. induction ch as [|x t IHt]; intros text; cbn [emit_nodes].
    + destruct text; [constructor|apply newline_document].
    + assert (forall b, Forall document_char (emit_nodes (emit (S level)) level b t)) as IHt'.
      { intros b. apply IHt; [|now destruct x; cbn in Hc|]; intros e He; [apply IH|apply Hl]; now right. }
      clear IHt. assert (Forall document_char (if text then [] else newline (S level))) as Hnl by (destruct text; [constructor|apply newline_document]).
      destruct x as [e|s|s|].
      * apply Forall_app. split; [exact Hnl|]. apply Forall_app. split; [|apply IHt']. apply IH; [now left|]. apply Hl. now left.
      * apply Forall_app. split; [|apply IHt']. apply esc_document; [exact esc_text_document|]. destruct Hc as [Hc _]. eapply Forall_impl; [|exact Hc]. cbn beta. tauto.
      * apply Forall_app. split; [now apply lit_document|]. apply Forall_app. split; [|apply Forall_app; split; [now apply lit_document|apply IHt']].
        destruct Hc as [[Hc _] _]. eapply Forall_impl; [|exact Hc]. cbn beta. tauto.
      * apply Forall_app. split; [exact Hnl|]. apply Forall_app. split; [now apply lit_document|apply IHt'].
Qed.

(** ** Together *)
Lemma parse_print e : carried e -> exists t, print_xml e = Some t /\ parse_xml t = Some (unblank e).
Proof.
  intros He. unfold print_xml. eexists. split; [reflexivity|]. unfold parse_xml.
  set (decl := lit "<?xml version=""1.0"" encoding=""UTF-8""?>").
  assert (forallb xml_char (decl ++ newline 0 ++ emit 0 e) = true) as ->.
  { apply forallb_forall. intros c Hc. apply xml_char_iff. revert c Hc. apply Forall_forall. apply Forall_app. split; [now apply lit_document|].
    apply Forall_app. split; [apply newline_document|now apply emit_document]. }
  assert (Lex (decl ++ newline 0 ++ emit 0 e) (TOther :: tokens e)) as H.
  { refine (LexStep _ (Some TOther) (newline 0 ++ emit 0 e) (tokens e) _ _ _).
    - generalize (newline 0 ++ emit 0 e). intros X. destruct X; reflexivity.
    - rewrite (app_length decl). cbn [decl]. change (List.length decl) with 38%nat. lia.
    - rewrite <- (app_nil_r (emit 0 e)), <- (app_nil_r (tokens e)). apply Lex_newline; [apply emit_opens|]. apply Lex_emit; [exact He|constructor]. }
  rewrite (Lex_lex _ _ H) by reflexivity. cbn [build]. apply build_root.
Qed.
Lemma unblank_unblanked e : unblanked e (unblank e).
Proof.
  induction e as [n a ch IH] using element_nested. cbn [unblank]. constructor.
  induction ch as [|x t IHt]; [constructor|]. assert (unblanked_nodes t (unblank_nodes unblank t)) as H by (apply IHt; intros e He; apply IH; now right).
  destruct x as [e|s|s|]; cbn [unblank_nodes]; try (now constructor).
  - constructor; [apply IH; now left|exact H].
  - destruct (blankb s) eqn:E; [apply UBlank|apply UText]; [now apply blankb_iff|exact H|now apply blankb_false|exact H].
Qed.
