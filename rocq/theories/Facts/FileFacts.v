(** What is read from a parsed text is made of characters of XML. *)
Require Import Coq.Strings.String Coq.Lists.List Coq.Bool.Bool Coq.Arith.Arith Coq.NArith.NArith Coq.ZArith.ZArith Coq.micromega.Lia.
Require Import Verif.Model.Base Verif.Model.Text Verif.Model.Float Verif.Model.Num Verif.Model.RustNum Verif.Model.Point Verif.Model.Contour
  Verif.Model.Create Verif.Model.Conv Verif.Model.Names Verif.Model.Pedantry Verif.Model.Color Verif.Model.Xml Verif.Model.XmlText Verif.Model.Plist
  Verif.Model.Parts Verif.Model.Read Verif.Model.Write
  Verif.Spec.TextSpec Verif.Spec.GlyphSpec Verif.Spec.DocumentSpec Verif.Spec.OpenSpec Verif.Spec.XmlTextSpec Verif.Spec.PlistSpec Verif.Spec.GrammarSpec Verif.Spec.FileSpec
  Verif.Facts.DocumentFacts Verif.Facts.OpenFacts Verif.Facts.XmlTextFacts Verif.Facts.GrammarFacts Verif.Facts.PlistFacts.
Import ListNotations.
Local Open Scope string_scope.
Local Open Scope list_scope.

(** ** Trees *)
Definition chars (s : str) : Prop := Forall document_char s.
Definition chars_nodes (sub : element -> Prop) : list node -> Prop :=
  fix all (l : list node) : Prop :=
    match l with
    | [] => True
    | NElem e :: t => sub e /\ all t
    | NText s :: t => chars s /\ all t
    | NCData s :: t => chars s /\ all t
    | NOther :: t => all t
    end.
Fixpoint chars_in (e : element) : Prop :=
  let 'Element n a ch := e in Forall (fun kv => chars (snd kv)) a /\ chars_nodes chars_in ch.

Lemma chars_app a b : chars (a ++ b) <-> chars a /\ chars b.
Proof. apply Forall_app. Qed.
Lemma stands_char b c : stands_for b c -> document_char c.
Proof. destruct 1; try assumption; unfold document_char; lia. Qed.
Lemma spells_chars raw s : spells raw s -> chars raw -> chars s.
Proof.
  induction 1 as [|c r s _ _ _ IH|b c r s Hb _ IH]; intros H; [constructor| |].
  - inversion_clear H. constructor; [assumption|now apply IH].
  - constructor; [now apply stands_char in Hb|]. apply IH. rewrite !chars_app in H. tauto.
Qed.
Lemma attributes_chars t l : attributes_text t l -> chars t -> Forall (fun kv => chars (snd kv)) l.
Proof.
  induction 1 as [w Hw|w n w1 w2 q raw v t l _ _ _ _ _ _ _ Hs _ IH _]; intros H; [constructor|]. rewrite !chars_app in H.
  constructor; [apply (spells_chars raw); [exact Hs|tauto]|apply IH; tauto].
Qed.
Lemma grammar_chars :
  (forall t e, element_text t e -> chars t -> chars_in e) /\
  (forall t l, GrammarSpec.content t l -> chars t -> chars_nodes chars_in l) /\
  (forall t l, markup t l -> chars t -> chars_nodes chars_in l).
Proof.
  apply grammar_ind.
  - intros n t a _ Ha H. rewrite !chars_app in H. cbn. split; [apply (attributes_chars t); tauto|exact I].
  - intros n t a c l w _ Ha _ IH _ H. rewrite !chars_app in H. cbn. split; [apply (attributes_chars t); tauto|apply IH; tauto].
  - intros w t l _ _ IH H. rewrite chars_app in H. tauto.
  - intros raw s t l Hs _ _ IH H. rewrite chars_app in H. split; [apply (spells_chars raw); tauto|tauto].
  - intros _. exact I.
  - intros t e c l _ IH1 _ IH2 H. rewrite chars_app in H. split; tauto.
  - intros s c l _ _ IH H. rewrite !chars_app in H. split; tauto.
  - intros t c l _ _ IH H. rewrite chars_app in H. cbn. tauto.
Qed.
Lemma document_chars t e : document t e -> chars_in e.
Proof. intros (H & b & m & a & -> & _ & He & _). rewrite !chars_app in H. now apply (proj1 grammar_chars m e He). Qed.

(** ** Parts of trees *)
Lemma chars_attrs e : chars_in e -> Forall (fun kv => chars (snd kv)) (eattrs e).
Proof. destruct e. now intros []. Qed.
Lemma chars_get e k s : chars_in e -> get e k = Some s -> chars s.
Proof.
  intros H. apply chars_attrs in H. unfold get. generalize (lit k). intros n. destruct e as [n' a ch]. cbn [eattrs] in *.
  induction H as [|[k' v] a Hv _ IH]; cbn; [discriminate|]. destruct (str_eqb _ _); [intros [= <-]; exact Hv|exact IH].
Qed.
Lemma chars_elem l e : chars_nodes chars_in l -> In (NElem e) l -> chars_in e.
Proof. induction l as [|x l IH]; [intros _ []|]. destruct x; cbn; intros H [E|Hi]; try discriminate; try (injection E as <-; tauto); apply IH; tauto. Qed.
Lemma chars_named n e x : chars_in e -> In x (GlyphSpec.named n e) -> chars_in x.
Proof.
  intros H Hx. unfold GlyphSpec.named, children_named in Hx. apply in_flat_map in Hx as (y & Hy & Hx). destruct y as [y|s|s|]; try destruct Hx.
  destruct (list_eq_dec N.eq_dec (ename y) (lit n)); [|destruct Hx]. destruct Hx as [<-|[]]. apply (chars_elem (echildren e)); [|exact Hy]. destruct e. apply H.
Qed.
Lemma chars_text e s : chars_in e -> GlyphSpec.text_in e = Some s -> chars s.
Proof.
  intros H. unfold GlyphSpec.text_in. destruct (existsb _ _); [|discriminate]. intros [= <-]. destruct e as [n a ch]. cbn [echildren]. destruct H as [_ H].
  induction ch as [|x ch IH]; [constructor|]. destruct x; cbn [flat_map says_text app]; cbn in H; try (apply IH; tauto); apply chars_app; split; [tauto|apply IH; tauto|tauto|apply IH; tauto].
Qed.

(** ** Property lists *)
Section Lib.
Context {X : Type} (S : scalars X).
Lemma text_of_chars c s : text_of c s -> chars_nodes chars_in c -> chars s.
Proof. induction 1; cbn; intros H'; [constructor| | |tauto]; apply chars_app; tauto. Qed.
Lemma inserted_in (l acc : list (str * pvalue X)) k v : In (k, v) (inserted l acc) -> In (k, v) acc \/ In (k, v) l.
Proof.
  revert acc. induction l as [|[k' v'] l IH]; intros acc H; [now left|]. cbn [inserted fold_left fst snd] in H. apply IH in H as [H|H]; [|now right; right].
  assert (forall d : list (str * pvalue X), In (k, v) (dict_insert k' v' d) -> (k, v) = (k', v') \/ In (k, v) d) as D.
  { clear. induction d as [|[k0 v0] d IH]; cbn; [intros [E|[]]; auto|]. destruct (str_eqb_spec' k' k0) as [<-|_].
    - intros [E|Hi]; auto.
    - intros [E|Hi]; [auto|]. destruct (IH Hi); auto. }
  apply D in H as [->|H]; [right; now left|now left].
Qed.
Lemma inserted_nodup l : forall acc : list (str * pvalue X), NoDup (map fst acc) -> NoDup (map fst (inserted l acc)).
Proof.
  induction l as [|[k v] l IH]; intros acc H; [exact H|]. cbn [inserted fold_left fst snd]. apply IH. destruct (in_keys k acc) as [Hk|Hk].
  - destruct (first_entry _ _ Hk) as (a & w & b & -> & Ha). rewrite dict_insert_again by exact Ha. rewrite map_app in *. exact H.
  - rewrite dict_insert_new by exact Hk. rewrite map_app. cbn. rewrite <- (rev_involutive (map fst acc ++ [k])). apply NoDup_rev. rewrite rev_app_distr. cbn.
    constructor; [now rewrite <- in_rev|now apply NoDup_rev].
Qed.
(** What is true of the parts of a value read. *)
Definition sound (v : pvalue X) : Prop :=
  (forall z, held v (PInteger z) -> (- 2 ^ 63 <= z < 2 ^ 64)%Z) /\
  (forall d, held v (PDict d) -> NoDup (map fst d)) /\
  (forall x, held v (PScalar x) -> exists n s, scalar_read S n s = Some x) /\
  (forall n, ~ held v (PUid n)) /\ (forall s, text_in v s \/ key_in v s -> chars s).
Lemma sound_array l : (forall v, In v l -> sound v) -> sound (PArray l).
Proof.
  intros H. split; [|split; [|split; [|split]]].
  - intros z Hz. inversion Hz; subst. now apply (H v).
  - intros d Hd. inversion Hd; subst. now apply (H v).
  - intros x Hx. inversion Hx; subst. now apply (H v).
  - intros n Hx. inversion Hx as [|? v ? Hi Hh|]; subst. now apply (H v Hi) in Hh.
  - intros s [Hs|(d & x & Hd & Hx)].
    + inversion Hs as [|? v ? Hi Hh|]; subst. apply (H v Hi). now left.
    + inversion Hd as [|? v ? Hi Hh|]; subst. apply (H v Hi). right. now exists d, x.
Qed.
Lemma sound_dict d : NoDup (map fst d) -> (forall k v, In (k, v) d -> chars k /\ sound v) -> sound (PDict d).
Proof.
  intros N H. split; [|split; [|split; [|split]]].
  - intros z Hz. inversion Hz as [| |? k v ? Hi Hh]; subst. destruct (H k v Hi) as [_ Hv]. now apply Hv.
  - intros d' Hd. inversion Hd as [| |? k v ? Hi Hh]; subst; [exact N|]. destruct (H k v Hi) as [_ Hv]. now apply Hv.
  - intros x Hx. inversion Hx as [| |? k v ? Hi Hh]; subst. destruct (H k v Hi) as [_ Hv]. now apply Hv.
  - intros n Hx. inversion Hx as [| |? k v ? Hi Hh]; subst. now apply (H k v Hi) in Hh.
  - intros s [Hs|(d' & x & Hd & Hx)].
    + inversion Hs as [| |? k v ? Hi Hh]; subst. apply (H k v Hi). now left.
    + inversion Hd as [| |? k v ? Hi Hh]; subst; [exact (proj1 (H s x Hx))|]. apply (H k v Hi). right. now exists d', x.
Qed.
Lemma sound_leaf v : match v with PInteger z => (- 2 ^ 63 <= z < 2 ^ 64)%Z | PText s => chars s | PScalar x => exists n s, scalar_read S n s = Some x | PBool _ => True | _ => False end -> sound v.
Proof.
  intros H. destruct v as [t|z|b|x|n|l|d]; try contradiction; (split; [|split; [|split; [|split]]]).
  all: try (intros y Hy; inversion Hy; subst; assumption).
  all: intros s [Hs|(d & y & Hd & Hy)]; [inversion Hs; subst; assumption|inversion Hd].
Qed.
Lemma value_sound e : forall v, chars_in e -> reads_as S e v -> sound v.
Proof.
  induction e as [n a c IH] using element_nested. intros v [_ Hc] H. inversion H as [? ? s T|? ? s z T I|? ? T|? ? T|? ? ? s x N T R|? ? es l E F|? ? es l d E En D]; subst.
  - apply sound_leaf. now apply (text_of_chars c).
  - apply sound_leaf. destruct I as [(k & _ & -> & Hk)|(t & k & _ & _ & -> & Hk)]; lia.
  - now apply sound_leaf.
  - now apply sound_leaf.
  - apply sound_leaf. eauto.
  - apply sound_array. intros v Hv. assert (exists e, In e es /\ reads_as S e v) as (e & He & Hr).
    { clear -F Hv. induction F as [|e w es l H F IH]; [destruct Hv|]. destruct Hv as [->|Hv]; [exists e; split; [now left|exact H]|]. destruct (IH Hv) as (e' & H1 & H2). exists e'. split; [now right|exact H2]. }
    apply (IH e); [now apply (elements_in c es)|apply (chars_elem c); [exact Hc|now apply (elements_in c es)]|exact Hr].
  - apply dictionary_iff in D. apply sound_dict; [rewrite D; apply inserted_nodup; constructor|]. intros k v Hi. rewrite D in Hi. apply inserted_in in Hi as [[]|Hi].
    apply reads_entries_iff in En. clear D H.
    assert (exists a0 c0 e, In (Element (lit "key") a0 c0) es /\ text_of c0 k /\ In e es /\ reads_as S e v) as (a0 & c0 & e & K1 & K2 & K3 & K4).
    { clear -En Hi. induction En as [|a c k0 e w es l Hk He En IH]; [destruct Hi|]. destruct Hi as [E|Hi].
      - injection E as -> ->. exists a, c, e. cbn [In]. tauto.
      - destruct (IH Hi) as (a0 & c0 & e0 & K1 & K2 & K3 & K4). exists a0, c0, e0. cbn [In]. tauto. }
    split.
    + apply (text_of_chars c0); [exact K2|]. apply (elements_in c es _ E) in K1. apply (chars_elem c _ Hc) in K1. apply K1.
    + apply (IH e); [now apply (elements_in c es)|apply (chars_elem c); [exact Hc|now apply (elements_in c es)]|exact K4].
Qed.
Lemma lib_sound e d : chars_in e -> lib_dictionary S e = PlOk d -> sound (PDict d).
Proof.
  intros H Hd. apply lib_dictionary_iff in Hd as (root & He & Hr). apply (value_sound root); [|exact Hr]. apply (chars_elem (echildren e)); [destruct e; apply H|].
  apply (elements_in _ _ _ He). now left.
Qed.
End Lib.

(** ** Names of points *)
Lemma cubic_names {PD} : forall l (c c' : contour PD) st st', cubic_loop (c, st) l = Ok (c', st') ->
  forall p, In p c' -> (exists q, In q c /\ pname p = pname q) \/ exists g, In g l /\ pname p = gname g.
Proof.
  assert (forall (f : point PD -> point PD) (l : list (point PD)) p, (forall q, pname (f q) = pname q) -> In p (map_last f l) -> exists q, In q l /\ pname p = pname q) as ML.
  { intros f l p Hf. induction l as [|x l IH]; [intros []|]. destruct l as [|y l]; cbn [map_last].
    - intros [<-|[]]. exists x. split; [now left|apply Hf].
    - intros [<-|Hp]; [exists x; split; [now left|reflexivity]|]. destruct (IH Hp) as (q & H1 & H2). exists q. split; [now right|exact H2]. }
  induction l as [|g l IH]; intros c c' st st' H p Hp; [injection H as -> ->; left; eauto|]. cbn [cubic_loop] in H.
  assert (forall c1 st1, cubic_loop (c1, st1) l = Ok (c', st') -> (forall q, In q c1 -> (exists q0, In q0 c /\ pname q = pname q0) \/ pname q = gname g) ->
    (exists q, In q c /\ pname p = pname q) \/ exists g0, In g0 (g :: l) /\ pname p = gname g0) as K.
  { intros c1 st1 H1 H2. destruct (IH c1 c' st1 st' H1 p Hp) as [(q & Hq & E)|(g0 & Hg & E)].
    - rewrite E. destruct (H2 q Hq) as [(q0 & H3 & H4)|H3]; [left; eauto|]. right. exists g. split; [now left|exact H3].
    - right. exists g0. split; [now right|exact E]. }
  unfold cubic_step in H. destruct (gptype g).
  all: try (cbn [bind] in H; eapply K; [exact H|]; intros q Hq; left; eauto; fail).
  all: try discriminate.
  all: destruct (pop st) as [h1 s1]; destruct (pop s1) as [h2 s2]; cbn [bind] in H; eapply K; [exact H|]; intros q Hq; apply in_app_iff in Hq as [Hq|[<-|[]]]; [left|now right];
    apply (ML (fun p => with_a p (handle_of_gp h1))) in Hq; [exact Hq|reflexivity].
Qed.
Lemma cubic_contour_names {PD} gc (c : contour PD) p : cubic_contour gc = Ok c -> In p c -> exists g, In g gc /\ pname p = gname g.
Proof.
  intros H Hp. unfold cubic_contour in H. destruct (cubic_loop ([], []) gc) as [[c1 st]| |] eqn:E; try discriminate. cbn [bind] in H.
  assert (forall q, In q c1 -> exists g, In g gc /\ pname q = gname g) as K.
  { intros q Hq. destruct (cubic_names gc [] c1 [] st E q Hq) as [(? & [] & _)|X]. exact X. }
  destruct (pop st) as [h1 s1]. destruct (pop s1) as [h2 s2].
  assert (forall c2 : contour PD, (forall q, In q c2 -> exists q0, In q0 c1 /\ pname q = pname q0) -> (forall q, In q c2 -> exists g, In g gc /\ pname q = gname g)) as T.
  { intros c2 H2 q Hq. destruct (H2 q Hq) as (q0 & H3 & H4). rewrite H4. now apply K. }
  set (c2 := map_last (fun p => with_a p (handle_of_gp h1)) c1) in H.
  assert (forall q, In q c2 -> exists q0, In q0 c1 /\ pname q = pname q0) as H2.
  { unfold c2. clear. induction c1 as [|x l IH]; [intros q []|]. intros q. destruct l as [|y l]; cbn [map_last].
    - intros [<-|[]]. exists x. split; [now left|reflexivity].
    - intros [<-|Hp]; [exists x; split; [now left|reflexivity]|]. destruct (IH q Hp) as (q0 & H1 & H2). exists q0. split; [now right|exact H2]. }
  clearbody c2. set (c3 := match c2 with [] => c2 | p :: _ => if negb (ptype_eqb (pptype p) Move) then map_first (fun p => with_b p (handle_of_gp h2)) c2 else c2 end) in H.
  assert (forall q, In q c3 -> exists q0, In q0 c1 /\ pname q = pname q0) as H3.
  { unfold c3. destruct c2 as [|x l]; [intros q []|]. destruct (negb _); [|exact H2]. intros q [<-|Hq]; [|apply H2; now right]. cbn. apply H2. now left. }
  clearbody c3. apply (T c3 H3). destruct c3 as [|x [|y l]]; [now injection H as <-| |now injection H as <-].
  destruct (ptype_eqb (pptype x) Move); injection H as <-; [destruct Hp|exact Hp].
Qed.

Lemma quadratic_names {PD} L gc (p : point PD) : In p (quadratic_contour L gc) -> pname p = None \/ exists g, In g gc /\ pname p = gname g.
Proof.
  unfold quadratic_contour.
  assert (forall l st, (forall q, In q (fst st) -> pname q = None \/ exists g, In g gc /\ pname q = gname g) -> (forall g, In g (snd st) -> In g gc) -> (forall g, In g l -> In g gc) ->
    (forall q, In q (fst (fold_left (quad_step (PD := PD) L) l st)) -> pname q = None \/ exists g, In g gc /\ pname q = gname g) /\ (forall g, In g (snd (fold_left (quad_step (PD := PD) L) l st)) -> In g gc)) as K.
  { induction l as [|g l IH]; intros [c st] H1 H2 H3; [now split|]. cbn [fold_left]. assert (In g gc) as Hg by (apply H3; now left). cbn [fst snd] in H1, H2. apply IH; [| |intros x Hx; apply H3; now right].
    - unfold quad_step. set (st' := if is_off (gptype g) then st ++ [g] else st).
      assert (forall x, In x st' -> In x gc) as H4. { unfold st'. destruct (is_off _); [|exact H2]. intros x Hx. apply in_app_iff in Hx as [Hx|[<-|[]]]; auto. }
      clearbody st'. destruct st' as [|h1 [|h2 [|h3 st']]]; cbn [negb].
      all: try (destruct (negb _); cbn [fst]; [|exact H1]).
      all: cbn [fst]; intros q Hq; apply in_app_iff in Hq as [Hq|Hq]; [now apply H1|].
      all: repeat destruct Hq as [<-|Hq]; try destruct Hq; right; cbn; eauto with datatypes.
    - unfold quad_step. set (st' := if is_off (gptype g) then st ++ [g] else st).
      assert (forall x, In x st' -> In x gc) as H4. { unfold st'. destruct (is_off _); [|exact H2]. intros x Hx. apply in_app_iff in Hx as [Hx|[<-|[]]]; auto. }
      clearbody st'. destruct st' as [|h1 [|h2 [|h3 st']]]; cbn [negb].
      all: try (destruct (negb _); cbn [snd]; [|exact H4]).
      all: cbn [snd]; intros x Hx; apply H4; cbn in *; tauto. }
  destruct (K gc ([], [])) as [K1 K2]; [intros q []|intros g []|auto|]. destruct (fold_left (quad_step L) gc ([], [])) as [c st]. cbn [fst snd] in K1, K2.
  destruct st as [|h1 st]; [apply K1|]. destruct c as [|h2 c]; [apply K1|]. intros Hp. apply in_app_iff in Hp as [Hp|Hp]; [now apply K1|].
  destruct Hp as [<-|[<-|[]]]; [right; exists h1; split; [apply K2; now left|reflexivity]|now left].
Qed.

(** ** Glyphs *)
Section Glyph.
Context {X : Type} (S : scalars X) {PD : Type} (pd0 : PD) (L : numlib).
Local Notation P := (xml_plist S).
Implicit Types g : glif PD (list (str * pvalue X)).

Lemma attribute_of (s : str) : chars s -> ~ In 9%N s -> attribute_text s.
Proof. intros H N. apply Forall_forall. intros c Hc. split; [now apply (proj1 (Forall_forall _ _) H)|]. intros ->. contradiction. Qed.
Lemma text_from (s : str) : chars s -> ~ In 13%N s -> plain_text s.
Proof. intros H N. apply Forall_forall. intros c Hc. split; [now apply (proj1 (Forall_forall _ _) H)|]. intros ->. contradiction. Qed.

Lemma Forall2_right {A B} (R : A -> B -> Prop) l l' b : Forall2 R l l' -> In b l' -> exists a, In a l /\ R a b.
Proof. intros F. induction F as [|x y l l' H F IH]; [intros []|]. intros [<-|Hb]; [exists x; split; [now left|exact H]|]. destruct (IH Hb) as (a & H1 & H2). exists a. split; [now right|exact H2]. Qed.

Lemma opened_lib ped root g : chars_in root -> read_element L pd0 P ped root = Ok g -> faithful_scalars S -> (forall s, lib_texts g s -> ~ In 13%N s /\ (s = [] \/ ~ all_blank s)) ->
  match g_lib g with
  | LNone => True
  | LPlist d => well_formed S (PDict d) /\ carried_value (PDict d) /\ named (PDict d) /\ ~ has_uid (PDict d) /\ (forall s, text_in (PDict d) s -> s = [] \/ ~ all_blank s)
  | LXml _ => False
  end.
Proof.
  intros Hc H HS Ht. apply read_element_says in H. destruct H as (_ & _ & _ & _ & _ & _ & _ & _ & _ & Hl & _). unfold lib_says in Hl.
  destruct (GlyphSpec.named "lib" root) as [|x r] eqn:E; [now rewrite Hl|]. assert (chars_in (Element (lit "plist") (eattrs x) (echildren x))) as Hx.
  { assert (chars_in x) as Hx by (apply (chars_named "lib" root); [exact Hc|rewrite E; now left]). destruct x. exact Hx. }
  cbn [plist_of_element xml_plist] in Hl. destruct (lib_dictionary S _) as [d| |] eqn:D in Hl; [|now rewrite Hl|now apply lib_dictionary_not in D].
  rewrite Hl. destruct (lib_sound S _ d Hx D) as (S1 & S2 & S3 & S4 & S5).
  assert (forall s, text_in (PDict d) s \/ key_in (PDict d) s -> ~ In 13%N s /\ (s = [] \/ ~ all_blank s)) as K by (intros s Hs; apply Ht; exists d; auto).
  split; [|split; [|split; [|split]]].
  - split; [exact S1|]. split; [exact S2|]. intros y Hy. destruct (S3 y Hy) as (n & s & R). now apply (HS n s).
  - intros s Hs. apply text_from; [now apply S5|now apply K].
  - intros k Hk. apply K. now right.
  - intros (n & Hn). now apply (S4 n).
  - intros s Hs. apply K. now left.
Qed.

Lemma opened_carried_any ped root g : chars_in root -> read_element L pd0 P ped root = Ok g ->
  lasting_texts g -> carried_lib P (g_lib g) -> carried_glyph P g.
Proof.
  intros Hc H (T1 & T2 & T3) Hl. pose proof (proj1 (contours_read L pd0 P ped root g H)) as Hr. apply read_element_says in H.
  destruct H as (_ & _ & Hn & _ & _ & Ha & Hi & Hg & Ht & _ & _ & _ & _ & gcs & o & Ho & _ & _).
  assert (forall k e s, chars_in e -> get e k = Some s -> In s (attribute_texts g) -> attribute_text s) as A.
  { intros k e s He Hs Hin. apply attribute_of; [now apply (chars_get e k)|now apply T1]. }
  unfold attribute_texts in A.
  split; [apply (A "name" root); [exact Hc|exact Hn|now left]|].
  split.
  { apply Forall_forall. intros a Hin s Es. destruct (Forall2_right _ _ _ a Ha Hin) as (e & He & (_ & Hcl & _)). apply (A "name" e); [now apply (chars_named "anchor" root)|now apply Hcl|].
    right. apply in_app_iff. left. apply in_flat_map. exists a. split; [exact Hin|]. rewrite Es. now left. }
  split.
  { apply Forall_forall. intros a Hin. destruct (Forall2_right _ _ _ a Hg Hin) as (e & He & (_ & _ & _ & E1 & _ & E2 & _)).
    assert (forall s, gl_name a = Some s \/ gl_identifier a = Some s -> In s (given (gl_name a) ++ given (gl_identifier a))) as G.
    { intros s. rewrite in_app_iff. intros [->| ->]; [left|right]; now left. }
    split; intros s Es; [apply (A "name" e)|apply (A "identifier" e)]; try (now apply (chars_named "guideline" root)); try congruence; right; apply in_app_iff; right; apply in_app_iff; left;
      apply in_flat_map; exists a; (split; [exact Hin|]); apply G; auto. }
  split.
  { apply Forall_forall. intros a Hin. assert (exists e, chars_in e /\ component_says L e a) as (e & He & (E1 & _ & E2 & _)).
    { unfold outline_says in Ho. destruct (GlyphSpec.named "outline" root) as [|oe r] eqn:Eo; [destruct Ho as [_ Ho]; rewrite Ho in Hin; destruct Hin|].
      destruct Ho as (all & _ & _ & Ho). destruct (Forall2_right _ _ _ a Ho Hin) as (e & He & X0). exists e. split; [|exact X0]. apply (chars_named "component" oe); [|exact He].
      apply (chars_named "outline" root); [exact Hc|rewrite Eo; now left]. }
    assert (forall s, c_base a = s \/ c_identifier a = Some s -> In s (c_base a :: given (c_identifier a))) as G.
    { intros s [->| ->]; [now left|right; now left]. }
    split; [apply (A "base" e)|intros s Es; apply (A "identifier" e)]; try assumption; try congruence; right; do 2 (apply in_app_iff; right); apply in_app_iff; left;
      apply in_flat_map; exists a; (split; [exact Hin|]); apply G; auto. }
  split.
  { apply Forall_forall. intros a Hin. destruct (Forall2_right _ _ _ a Hi Hin) as (e & He & ((f & E1 & E1') & _ & E2 & _)).
    assert (forall s, os_text (i_filename a) = s \/ i_identifier a = Some s -> In s (os_text (i_filename a) :: given (i_identifier a))) as G.
    { intros s [->| ->]; [now left|right; now left]. }
    split; [apply (A "fileName" e)|intros s Es; apply (A "identifier" e)]; try (now apply (chars_named "image" root)); try congruence; try (rewrite E1'; exact E1);
      right; do 3 (apply in_app_iff; right); apply in_app_iff; left; apply in_flat_map; exists a; (split; [exact Hin|]); apply G; auto. }
  split.
  { apply Forall_forall. intros c Hin. apply Forall_forall. intros p Hpc s Es. destruct (Hr c Hin) as (ce & Hce & (Hne & gc & Hgc & Hcc)).
    assert (chars_in ce) as Hch.
    { unfold contours_in in Hce. destruct (GlyphSpec.named "outline" root) as [|oe r] eqn:Eo; [destruct Hce|]. apply (chars_named "contour" oe); [|exact Hce]. apply (chars_named "outline" root); [exact Hc|rewrite Eo; now left]. }
    assert (exists q, In q gc /\ pname p = gname q) as (q & Hq & Eq).
    { destruct gc as [|q gc]; [discriminate|]. unfold contour_of_glif in Hcc.
      destruct (gptype q) eqn:Eg; try (injection Hcc as <-; congruence); try (now apply (cubic_contour_names (q :: gc) c)).
      all: injection Hcc as <-; destruct (quadratic_names L _ p Hpc) as [X0|X0]; [congruence|exact X0]. }
    destruct (Forall2_right _ _ _ q Hgc Hq) as (e & He & (_ & _ & _ & En & _)). apply (A "name" e); [now apply (chars_named "point" ce)|congruence|].
    right. do 4 (apply in_app_iff; right). apply in_flat_map. exists p. split; [apply in_concat; eauto|]. rewrite Es. now left. }
  split; [|exact Hl].
  intros s Es. apply text_from; [|now apply T2]. rewrite Ht in Es. destruct (GlyphSpec.named "note" root) as [|n r] eqn:En; [discriminate|].
  apply (chars_text n); [apply (chars_named "note" root); [exact Hc|rewrite En; now left]|exact Es].
Qed.
Lemma opened_carried ped root g : chars_in root -> read_element L pd0 P ped root = Ok g -> (forall ce, In ce (contours_in root) -> plain_contour ce) ->
  lasting_texts g -> carried_lib P (g_lib g) -> carried_glyph P g.
Proof. intros Hc H _. now apply (opened_carried_any ped root). Qed.
End Glyph.
