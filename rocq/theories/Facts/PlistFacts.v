(** Facts on property lists: what is written is read back. *)
Require Import Coq.Strings.String Coq.Lists.List Coq.Arith.Arith Coq.NArith.NArith Coq.ZArith.ZArith Coq.Bool.Bool Coq.micromega.Lia.
Require Import Verif.Model.Base Verif.Model.Text Verif.Model.Xml Verif.Model.XmlText Verif.Model.Parts Verif.Model.Plist
  Verif.Spec.TextSpec Verif.Spec.XmlTextSpec Verif.Spec.PlistSpec
  Verif.Facts.TextFacts Verif.Facts.NamesFacts Verif.Facts.DigitFacts Verif.Facts.XmlTextFacts Verif.Facts.XmlGlyphFacts.
Import ListNotations.
Local Open Scope list_scope.

(** ** Integers *)
Lemma parse_integer_iff s z : parse_integer s = Some z <-> integer_text s z.
Proof.
  assert (forall t n, 45%N :: t = s -> ~ unsigned_text 10 s n) as NU.
  { intros t n <- [H|(t' & H & _)]; [|discriminate]. now apply digits_no_sign in H; [|lia|lia]. }
  unfold integer_text. destruct s as [|c t].
  - split; [discriminate|]. intros [(n & [H|(t' & H & _)] & _)|(t & n & H & _)]; try discriminate. now apply denotes_nonempty in H.
  - destruct (N.eq_dec c 45) as [->|Hc].
    + cbn [parse_integer]. split.
      * intros H. right. destruct t as [|d t]; [discriminate|]. destruct (digits_val 10 (d :: t) 0) as [n|] eqn:E; [|discriminate].
        destruct (N.leb_spec n (2 ^ 63)) as [Hn|_]; [|discriminate]. injection H as <-. exists (d :: t), n. split; [reflexivity|].
        apply digits_val_denotes in E; [|lia|discriminate]. auto.
      * intros [(n & H & _)|(t' & n & [= <-] & H & -> & Hn)]; [now apply (NU t n) in H|].
        pose proof (denotes_nonempty _ _ _ H) as Ht. apply digits_val_denotes in H; [|lia|exact Ht]. destruct t; [congruence|]. rewrite H.
        now rewrite (proj2 (N.leb_le _ _) Hn).
    + assert (parse_integer (c :: t) = match parse_u64 (c :: t) with Some n => Some (Z.of_N n) | None => None end) as ->.
      { clear - Hc. unfold parse_integer. destruct c as [|p]; [reflexivity|]. repeat (destruct p as [p|p|]; try reflexivity; try congruence). }
      unfold parse_u64. split.
      * destruct (parse_uint 10 u64_max (c :: t)) as [n|] eqn:E; [|discriminate]. intros [= <-]. apply parse_uint_iff in E; [|lia]. left. exists n. split; [apply E|].
        split; [reflexivity|]. destruct E as [_ E]. unfold u64_max in E. lia.
      * intros [(n & H & -> & Hn)|(t' & n & [= ? _] & _)]; [|congruence].
        assert (parse_uint 10 u64_max (c :: t) = Some n) as ->; [|reflexivity]. apply parse_uint_iff; [lia|]. split; [exact H|]. unfold u64_max. lia.
Qed.
Lemma parse_show_integer z : (- 2 ^ 63 <= z < 2 ^ 64)%Z -> parse_integer (show_int z) = Some z.
Proof.
  intros H. apply parse_integer_iff. unfold show_int, integer_text.
  assert (forall n, denotes 10 (show_dec n) n) as D.
  { intros n. apply digits_val_denotes; [lia|apply show_uint_nonempty|]. apply show_uint_val; lia. }
  destruct z as [|p|p]; [left; exists 0%N|left; exists (N.pos p)|right; eexists; exists (N.pos p)].
  - split; [left; apply D|]. split; [reflexivity|lia].
  - split; [left; apply D|]. split; [reflexivity|lia].
  - split; [reflexivity|]. split; [apply D|]. split; [reflexivity|lia].
Qed.
Lemma show_int_chars z c : In c (show_int z) -> c = 45%N \/ (48 <= c <= 57)%N.
Proof.
  unfold show_int. destruct z; intros H; [right; now apply show_dec_chars in H|right; now apply show_dec_chars in H|].
  destruct H as [<-|H]; [now left|right; now apply show_dec_chars in H].
Qed.
Lemma show_int_nonblank z : exists c, In c (show_int z) /\ ~ blank c.
Proof.
  assert (exists c, In c (show_int z)) as (c & Hc).
  { assert (show_int z <> []) as H by (unfold show_int; destruct z; try discriminate; apply show_uint_nonempty). destruct (show_int z) as [|c t]; [congruence|]. exists c. now left. }
  exists c. split; [exact Hc|]. apply show_int_chars in Hc. unfold blank. lia.
Qed.
Lemma show_int_plain z : plain_text (show_int z).
Proof. apply Forall_forall. intros c Hc. apply show_int_chars in Hc. unfold document_char. lia. Qed.

(** ** Nested values *)
Section Plist.
Context {X : Type} (S : scalars X).
Lemma pvalue_nested (Q : pvalue X -> Prop) :
  (forall s, Q (PText s)) -> (forall z, Q (PInteger z)) -> (forall b, Q (PBool b)) -> (forall x, Q (PScalar x)) -> (forall n, Q (PUid n)) ->
  (forall l, (forall v, In v l -> Q v) -> Q (PArray l)) -> (forall d, (forall k v, In (k, v) d -> Q v) -> Q (PDict d)) -> forall v, Q v.
Proof.
  intros H1 H2 H3 H4 H5 H6 H7. fix F 1. intros [s|z|b|x|n|l|d]; [apply H1|apply H2|apply H3|apply H4|apply H5|apply H6|apply H7].
  - induction l as [|v l IH]; intros w Hw; [destruct Hw|]. destruct Hw as [<-|Hw]; [apply F|now apply IH].
  - induction d as [|[k v] d IH]; intros k' w Hw; [destruct Hw|]. destruct Hw as [Hw|Hw]; [|now apply (IH k')].
    apply (f_equal snd) in Hw. cbn in Hw. rewrite <- Hw. apply F.
Qed.

Lemma well_formed_item l v : well_formed S (PArray l) -> In v l -> well_formed S v.
Proof. intros (H1 & H2 & H3) Hv. split; [|split]; intros w Hw; [apply H1|apply H2|apply H3]; now apply (HeldArray l v). Qed.
Lemma well_formed_entry d k v : well_formed S (PDict d) -> In (k, v) d -> well_formed S v.
Proof. intros (H1 & H2 & H3) Hv. split; [|split]; intros w Hw; [apply H1|apply H2|apply H3]; now apply (HeldDict d k v). Qed.
Lemma carried_item (l : list (pvalue X)) v : carried_value (PArray l) -> In v l -> carried_value v.
Proof.
  intros H Hv s [Hs|(d & x & Hs & Hd)]; apply H; [left; now apply (HeldArray l v)|right; exists d, x]. split; [now apply (HeldArray l v)|exact Hd].
Qed.
Lemma carried_entry (d : list (str * pvalue X)) k v : carried_value (PDict d) -> In (k, v) d -> carried_value v.
Proof.
  intros H Hv s [Hs|(d' & x & Hs & Hd)]; apply H; [left; now apply (HeldDict d k v)|right; exists d', x]. split; [now apply (HeldDict d k v)|exact Hd].
Qed.
Lemma carried_key (d : list (str * pvalue X)) k v : carried_value (PDict d) -> In (k, v) d -> plain_text k.
Proof. intros H Hv. apply H. right. exists d, v. split; [constructor|exact Hv]. Qed.
Lemma named_item (l : list (pvalue X)) v : named (PArray l) -> In v l -> named v.
Proof. intros H Hv k (d & x & Hd & Hk). apply H. exists d, x. split; [now apply (HeldArray l v)|exact Hk]. Qed.
Lemma named_entry (d : list (str * pvalue X)) k v : named (PDict d) -> In (k, v) d -> named v.
Proof. intros H Hv k' (d' & x & Hd & Hk). apply H. exists d', x. split; [now apply (HeldDict d k v)|exact Hk]. Qed.
Lemma named_key (d : list (str * pvalue X)) k v : named (PDict d) -> In (k, v) d -> k = [] \/ ~ all_blank k.
Proof. intros H Hv. apply H. exists d, v. split; [constructor|exact Hv]. Qed.

(** ** Uids *)
Lemma item_nodes_in sub (l : list (pvalue X)) c : item_nodes sub l = Some c -> exists es, c = map NElem es /\ Forall2 (fun v e => sub v = Some e) l es.
Proof.
  revert c. induction l as [|v l IH]; intros c H; cbn [item_nodes] in H; [injection H as <-; exists []; now split|].
  fold (item_nodes sub l) in H. destruct (sub v) as [e|] eqn:E; [|discriminate]. destruct (item_nodes sub l) as [c'|]; [|discriminate]. injection H as <-.
  destruct (IH c' eq_refl) as (es & -> & F). exists (e :: es). split; [reflexivity|now constructor].
Qed.
Definition entry_elements (kv : str * pvalue X) (e : element) : list element := [tag "key" (text_nodes (fst kv)); e].
Lemma entry_nodes_in sub (d : list (str * pvalue X)) c : entry_nodes sub d = Some c ->
  exists es, c = map NElem (concat (map (fun p => entry_elements (fst p) (snd p)) (combine d es))) /\ Forall2 (fun kv e => sub (snd kv) = Some e) d es.
Proof.
  revert c. induction d as [|[k v] d IH]; intros c H; cbn [entry_nodes] in H; [injection H as <-; exists []; now split|].
  fold (entry_nodes sub d) in H. destruct (sub v) as [e|] eqn:E; [|discriminate]. destruct (entry_nodes sub d) as [c'|]; [|discriminate]. injection H as <-.
  destruct (IH c' eq_refl) as (es & -> & F). exists (e :: es). split; [reflexivity|]. constructor; [exact E|exact F].
Qed.
Lemma item_nodes_none sub (l : list (pvalue X)) : item_nodes sub l = None <-> exists v, In v l /\ sub v = None.
Proof.
  induction l as [|v l IH]; cbn [item_nodes]; [split; [discriminate|intros (v & [] & _)]|]. fold (item_nodes sub l).
  destruct (sub v) as [e|] eqn:E.
  - transitivity (item_nodes sub l = None); [destruct (item_nodes sub l); split; congruence|]. rewrite IH. split; intros (w & Hw & Hn); exists w.
    + split; [now right|exact Hn].
    + destruct Hw as [<-|Hw]; [congruence|now split].
  - split; [|reflexivity]. intros _. exists v. split; [now left|exact E].
Qed.
Lemma entry_nodes_none sub (d : list (str * pvalue X)) : entry_nodes sub d = None <-> exists k v, In (k, v) d /\ sub v = None.
Proof.
  induction d as [|[k v] d IH]; cbn [entry_nodes]; [split; [discriminate|intros (k & v & [] & _)]|]. fold (entry_nodes sub d).
  destruct (sub v) as [e|] eqn:E.
  - transitivity (entry_nodes sub d = None); [destruct (entry_nodes sub d); split; congruence|]. rewrite IH. split; intros (k' & w & Hw & Hn); exists k', w.
    + split; [now right|exact Hn].
    + destruct Hw as [[= <- <-]|Hw]; [congruence|now split].
  - split; [|reflexivity]. intros _. exists k, v. split; [now left|exact E].
Qed.
Lemma value_element_none v : value_element S v = None <-> has_uid v.
Proof.
  unfold has_uid. induction v as [s|z|b|x|n|l IH|d IH] using pvalue_nested; cbn [value_element].
  1-3: split; [discriminate|intros (n & H); inversion H].
  - destruct (scalar_show S x). split; [discriminate|intros (n & H); inversion H].
  - split; [|reflexivity]. intros _. exists n. constructor.
  - transitivity (item_nodes (value_element S) l = None); [destruct (item_nodes _ l); split; congruence|]. rewrite item_nodes_none. split.
    + intros (v & Hv & Hn). apply (IH v Hv) in Hn as (n & Hn). exists n. now apply (HeldArray l v).
    + intros (n & Hn). inversion Hn as [|? v ? Hv Hw|]; subst. exists v. split; [exact Hv|]. apply (IH v Hv). now exists n.
  - transitivity (entry_nodes (value_element S) d = None); [destruct (entry_nodes _ d); split; congruence|]. rewrite entry_nodes_none. split.
    + intros (k & v & Hv & Hn). apply (IH k v Hv) in Hn as (n & Hn). exists n. now apply (HeldDict d k v).
    + intros (n & Hn). inversion Hn as [| |? k v ? Hv Hw]; subst. exists k, v. split; [exact Hv|]. apply (IH k v Hv). now exists n.
Qed.

(** ** The trees can be carried *)
Lemma carried_text_element n s : plain_xml_name n -> plain_text s -> carried (Element n [] (text_nodes s)).
Proof.
  intros Hn Hs. split; [exact Hn|]. split; [constructor|]. split; [constructor|]. split.
  - intros l a b r E. destruct s as [|c s]; [now destruct l|]. destruct l as [|x l]; [discriminate|]. apply (f_equal (@List.length node)) in E. cbn in E. rewrite app_length in E. cbn in E. lia.
  - destruct s; [exact I|now split].
Qed.
Lemma scalar_name n : In n [lit "real"; lit "date"; lit "data"] -> plain_xml_name n.
Proof. intros [<-|[<-|[<-|[]]]]; lit_name. Qed.
Lemma entry_elements_in (d : list (str * pvalue X)) es x : In x (concat (map (fun p => entry_elements (fst p) (snd p)) (combine d es))) ->
  exists kv e, In (kv, e) (combine d es) /\ (x = tag "key" (text_nodes (fst kv)) \/ x = e).
Proof.
  intros H. apply in_concat in H as (l & Hl & Hx). apply in_map_iff in Hl as ([kv e] & <- & Hc). exists kv, e. split; [exact Hc|].
  destruct Hx as [<-|[<-|[]]]; auto.
Qed.
Lemma Forall2_combine {A B} (R : A -> B -> Prop) l l' a b : Forall2 R l l' -> In (a, b) (combine l l') -> R a b.
Proof. induction 1 as [|x y l l' H F IH]; [intros []|]. intros [E|Hi]; [injection E as <- <-; exact H|now apply IH]. Qed.
Lemma value_carried v : forall e, well_formed S v -> carried_value v -> value_element S v = Some e -> carried e.
Proof.
  induction v as [s|z|b|x|n|l IH|d IH] using pvalue_nested; intros e Hw Hc H; cbn [value_element] in H.
  - injection H as <-. apply carried_text_element; [lit_name|]. apply Hc. left. constructor.
  - injection H as <-. apply carried_text_element; [lit_name|]. apply show_int_plain.
  - injection H as <-. destruct b; [apply (carried_parent "true" [])|apply (carried_parent "false" [])]; try lit_name; constructor.
  - destruct (proj2 (proj2 Hw) x (Held _)) as (H1 & H2 & _). destruct (scalar_show S x) as [n s]. injection H as <-. apply carried_text_element; [now apply scalar_name|exact H2].
  - discriminate.
  - destruct (item_nodes (value_element S) l) as [c|] eqn:E; [|discriminate]. injection H as <-. apply item_nodes_in in E as (es & -> & F).
    apply carried_parent; [lit_name|]. apply Forall_forall. intros e He. apply In_nth_error in He as (i & Hi).
    assert (exists v, In v l /\ value_element S v = Some e) as (v & Hv & Hve).
    { clear - F Hi. revert i Hi. induction F as [|v x l es H F IH]; intros i Hi; [now destruct i|]. destruct i as [|i]; cbn in Hi.
      - injection Hi as <-. exists v. split; [now left|exact H].
      - destruct (IH i Hi) as (w & Hw & Hx). exists w. split; [now right|exact Hx]. }
    apply (IH v Hv); [now apply (well_formed_item l)|now apply (carried_item l)|exact Hve].
  - destruct (entry_nodes (value_element S) d) as [c|] eqn:E; [|discriminate]. injection H as <-. apply entry_nodes_in in E as (es & -> & F).
    apply carried_parent; [lit_name|]. apply Forall_forall. intros x Hx. apply entry_elements_in in Hx as ([k v] & e & Hi & Hx).
    pose proof (Forall2_combine _ _ _ _ _ F Hi) as Hve. apply in_combine_l in Hi. destruct Hx as [-> | ->].
    + apply carried_text_element; [lit_name|]. now apply (carried_key d k v).
    + apply (IH k v Hi); [now apply (well_formed_entry d k)|now apply (carried_entry d k)|exact Hve].
Qed.

(** ** Reading what was written *)
Definition emptied_text (s : str) : str := if blankb s then [] else s.
Fixpoint emptied (v : pvalue X) : pvalue X :=
  match v with
  | PText s => PText (emptied_text s)
  | PArray l => PArray (map emptied l)
  | PDict d => PDict (map (fun kv => let '(k, v) := kv in (k, emptied v)) d)
  | v => v
  end.
Lemma emptied_lost v : ~ has_uid v -> blanks_lost v (emptied v).
Proof.
  induction v as [s|z|b|x|n|l IH|d IH] using pvalue_nested; intros Hu; cbn [emptied]; try constructor.
  - unfold emptied_text. destruct (blankb s) eqn:E; [apply LostBlank; exact (proj1 (blankb_iff s) E)|apply LostText]. intros H. apply blankb_false in E as (c & Hc & Hb). now apply Hb, H.
  - exfalso. apply Hu. exists n. constructor.
  - assert (forall v, In v l -> blanks_lost v (emptied v)) as H.
    { intros v Hv. apply (IH v Hv). intros (n & Hn). apply Hu. exists n. now apply (HeldArray l v). }
    clear - H. induction l as [|v l IH]; constructor; [apply H; now left|apply IH; intros w Hw; apply H; now right].
  - assert (forall k v, In (k, v) d -> blanks_lost v (emptied v)) as H.
    { intros k v Hv. apply (IH k v Hv). intros (n & Hn). apply Hu. exists n. now apply (HeldDict d k v). }
    clear - H. induction d as [|[k v] d IH]; constructor; [split; [reflexivity|]; apply (H k); now left|apply IH; intros k' w Hw; apply (H k'); now right].
Qed.
Lemma content_text s : content (unblank_nodes unblank (text_nodes s)) = Some (emptied_text s).
Proof.
  unfold emptied_text. destruct s as [|c s]; [reflexivity|]. unfold text_nodes, unblank_nodes. destruct (blankb (c :: s)); [reflexivity|]. cbn [content]. now rewrite app_nil_r.
Qed.
Lemma content_kept s : (exists c, In c s /\ ~ blank c) -> content (unblank_nodes unblank (text_nodes s)) = Some s.
Proof. intros H. rewrite content_text. unfold emptied_text. apply blankb_false in H. now rewrite H. Qed.
Lemma unblank_elements (es : list element) : unblank_nodes unblank (map NElem es) = map NElem (map unblank es).
Proof. induction es as [|e es IH]; [reflexivity|]. cbn [map unblank_nodes]. now f_equal. Qed.
Lemma parts_elements {B} (sub : element -> B) (es : list element) : parts sub (map NElem es) = Some (map (fun e => (e, sub e)) es).
Proof. induction es as [|e es IH]; [reflexivity|]. cbn [map parts]. fold (parts sub (map NElem es)). now rewrite IH. Qed.
Lemma dict_insert_new k v (d : list (str * pvalue X)) : ~ In k (map fst d) -> dict_insert k v d = d ++ [(k, v)].
Proof.
  induction d as [|[k' v'] d IH]; [reflexivity|]. cbn [map fst In dict_insert app]. intros H. rewrite str_eqb_neq by intuition. f_equal. apply IH. intuition.
Qed.
Lemma element_value_eq n a c : element_value S (Element n a c) =
  if str_eqb n (lit "string") then match content c with Some s => Some (PText s) | None => None end
  else if str_eqb n (lit "integer") then
    match content c with
    | Some s => match parse_integer s with Some z => Some (PInteger z) | None => None end
    | None => None
    end
  else if str_eqb n (lit "true") then match content c with Some [] => Some (PBool true) | _ => None end
  else if str_eqb n (lit "false") then match content c with Some [] => Some (PBool false) | _ => None end
  else if str_eqb n (lit "array") then
    match parts (element_value S) c with
    | Some l => match items l with Some r => Some (PArray r) | None => None end
    | None => None
    end
  else if str_eqb n (lit "dict") then
    match parts (element_value S) c with
    | Some l => match entries l [] with Some r => Some (PDict r) | None => None end
    | None => None
    end
  else match content c with
       | Some s => match scalar_read S n s with Some x => Some (PScalar x) | None => None end
       | None => None
       end.
Proof. reflexivity. Qed.
Lemma entries_read (d : list (str * pvalue X)) es : forall acc,
  Forall2 (fun kv e => element_value S (unblank e) = Some (emptied (snd kv))) d es ->
  (forall k v, In (k, v) d -> k = [] \/ ~ all_blank k) -> NoDup (map fst acc ++ map fst d) ->
  entries (map (fun e => (e, element_value S e)) (map unblank (concat (map (fun p => entry_elements (fst p) (snd p)) (combine d es))))) acc =
  Some (acc ++ map (fun kv => let '(k, v) := kv in (k, emptied v)) d).
Proof.
  intros acc F. revert acc. induction F as [|[k v] e d es He F IH]; intros acc Hk Hd; [cbn; now rewrite app_nil_r|].
  cbn [combine map concat entry_elements fst snd app]. 
  assert (unblank (tag "key" (text_nodes k)) = Element (lit "key") [] (unblank_nodes unblank (text_nodes k))) as -> by reflexivity.
  cbn [entries]. cbn [snd] in He. rewrite He, str_eqb_refl, content_text.
  assert (emptied_text k = k) as ->.
  { unfold emptied_text. destruct (blankb k) eqn:E; [|reflexivity]. destruct (Hk k v (or_introl eq_refl)) as [->|H]; [reflexivity|]. exfalso. exact (H (proj1 (blankb_iff k) E)). }
  rewrite dict_insert_new.
  - rewrite IH.
    + now rewrite <- app_assoc.
    + intros k' v' Hv. apply (Hk k' v'). now right.
    + rewrite map_app, <- app_assoc. exact Hd.
  - apply NoDup_remove_2 in Hd. intros H. apply Hd, in_or_app. now left.
Qed.
Lemma value_read v : forall e, well_formed S v -> named v -> value_element S v = Some e -> element_value S (unblank e) = Some (emptied v).
Proof.
  induction v as [s|z|b|x|n|l IH|d IH] using pvalue_nested; intros e Hw Hn H; cbn [value_element] in H.
  - injection H as <-. unfold tag. cbn [unblank]. rewrite element_value_eq, content_text. reflexivity.
  - injection H as <-. unfold tag. cbn [unblank]. rewrite element_value_eq, (content_kept _ (show_int_nonblank z)).
    rewrite parse_show_integer; [reflexivity|]. apply Hw. constructor.
  - injection H as <-. destruct b; reflexivity.
  - destruct (proj2 (proj2 Hw) x (Held _)) as (H1 & _ & H2 & H3). destruct (scalar_show S x) as [n s]. injection H as <-. cbn [fst snd] in *. cbn [unblank].
    rewrite element_value_eq, (content_kept s H2), H3. destruct H1 as [<-|[<-|[<-|[]]]]; reflexivity.
  - discriminate.
  - destruct (item_nodes (value_element S) l) as [c|] eqn:E; [|discriminate]. injection H as <-. apply item_nodes_in in E as (es & -> & F).
    unfold tag. cbn [unblank]. rewrite element_value_eq, unblank_elements, parts_elements. cbn [emptied].
    assert (items (map (fun e => (e, element_value S e)) (map unblank es)) = Some (map emptied l)) as ->; [|reflexivity].
    assert (forall v, In v l -> well_formed S v /\ named v) as Hl by (intros v Hv; split; [now apply (well_formed_item l)|now apply (named_item l)]).
    clear Hw Hn. induction F as [|v e l es He F IHF]; [reflexivity|]. cbn [map items]. destruct (Hl v (or_introl eq_refl)) as [W N].
    rewrite (IH v (or_introl eq_refl) e W N He), IHF; [reflexivity| |]; intros w Hv; [apply IH; now right|apply Hl; now right].
  - destruct (entry_nodes (value_element S) d) as [c|] eqn:E; [|discriminate]. injection H as <-. apply entry_nodes_in in E as (es & -> & F).
    unfold tag. cbn [unblank]. rewrite element_value_eq, unblank_elements, parts_elements. cbn [emptied].
    rewrite entries_read; [reflexivity| | |].
    + assert (forall k v, In (k, v) d -> well_formed S v /\ named v) as Hl by (intros k v Hv; split; [now apply (well_formed_entry d k)|now apply (named_entry d k)]).
      clear Hw Hn. induction F as [|[k v] e d es He F IHF]; [constructor|]. destruct (Hl k v (or_introl eq_refl)) as [W N]. constructor.
      * apply (IH k v (or_introl eq_refl) e W N He).
      * apply IHF; intros k' w Hv; [apply (IH k'); now right|apply (Hl k'); now right].
    + intros k v Hv. now apply (named_key d k v).
    + cbn [map app]. apply Hw. constructor.
Qed.

(** ** What is written has no blank texts and can be carried *)
Lemma unblank_text s : unblank_nodes unblank (text_nodes s) = text_nodes (emptied_text s).
Proof. unfold emptied_text. destruct s as [|c s]; [reflexivity|]. unfold text_nodes at 1, unblank_nodes. now destruct (blankb (c :: s)). Qed.
Lemma plain_emptied s : plain_text s -> plain_text (emptied_text s).
Proof. unfold emptied_text. destruct (blankb s); [constructor|auto]. Qed.
Lemma value_carried_unblank v : forall e, well_formed S v -> carried_value v -> value_element S v = Some e -> carried (unblank e).
Proof.
  induction v as [s|z|b|x|n|l IH|d IH] using pvalue_nested; intros e Hw Hc H; cbn [value_element] in H.
  - injection H as <-. unfold tag. cbn [unblank]. rewrite unblank_text. apply carried_text_element; [lit_name|]. apply plain_emptied, Hc. left. constructor.
  - injection H as <-. unfold tag. cbn [unblank]. rewrite unblank_text. apply carried_text_element; [lit_name|]. apply plain_emptied, show_int_plain.
  - injection H as <-. destruct b; [apply (carried_parent "true" [])|apply (carried_parent "false" [])]; try lit_name; constructor.
  - destruct (proj2 (proj2 Hw) x (Held _)) as (H1 & H2 & _). destruct (scalar_show S x) as [n s]. injection H as <-. cbn [unblank]. rewrite unblank_text.
    apply carried_text_element; [now apply scalar_name|now apply plain_emptied].
  - discriminate.
  - destruct (item_nodes (value_element S) l) as [c|] eqn:E; [|discriminate]. injection H as <-. apply item_nodes_in in E as (es & -> & F).
    unfold tag. cbn [unblank]. rewrite unblank_elements. apply carried_parent; [lit_name|].
    assert (forall v, In v l -> well_formed S v /\ carried_value v) as Hl by (intros v Hv; split; [now apply (well_formed_item l)|now apply (carried_item l)]).
    clear Hw Hc. induction F as [|v e l es He F IHF]; [constructor|]. destruct (Hl v (or_introl eq_refl)) as [W C]. constructor; [now apply (IH v (or_introl eq_refl))|].
    apply IHF; intros w Hv; [apply IH; now right|apply Hl; now right].
  - destruct (entry_nodes (value_element S) d) as [c|] eqn:E; [|discriminate]. injection H as <-. apply entry_nodes_in in E as (es & -> & F).
    unfold tag at 1. cbn [unblank]. rewrite unblank_elements. apply carried_parent; [lit_name|]. apply Forall_forall. intros x Hx. apply in_map_iff in Hx as (y & <- & Hx).
    apply entry_elements_in in Hx as ([k v] & e & Hi & Hx).
    pose proof (Forall2_combine _ _ _ _ _ F Hi) as Hve. apply in_combine_l in Hi. destruct Hx as [-> | ->].
    + unfold tag. cbn [unblank]. rewrite unblank_text. apply carried_text_element; [lit_name|]. now apply plain_emptied, (carried_key d k v).
    + apply (IH k v Hi); [now apply (well_formed_entry d k)|now apply (carried_entry d k)|exact Hve].
Qed.
Lemma unblank_again e : unblank (unblank e) = unblank e.
Proof.
  induction e as [n a ch IH] using element_nested. cbn [unblank]. f_equal. induction ch as [|x t IHt]; [reflexivity|].
  destruct x as [e|s|s|]; cbn [unblank_nodes].
  - rewrite IH by now left. f_equal. apply IHt. intros e' He'. apply IH. now right.
  - destruct (blankb s) eqn:E; cbn [unblank_nodes]; [|rewrite E; f_equal]; apply IHt; intros e' He'; apply IH; now right.
  - f_equal. apply IHt. intros e' He'. apply IH. now right.
  - f_equal. apply IHt. intros e' He'. apply IH. now right.
Qed.

Lemma plist_carried d e : well_formed S (PDict d) -> carried_value (PDict d) -> plist_tree S d = Some e -> carried e.
Proof.
  intros Hw Hc. unfold plist_tree. destruct (value_element S (PDict d)) as [x|] eqn:E; [|discriminate]. intros [= <-].
  split; [lit_name|]. split; [constructor; [|constructor]; split; [lit_name|]; split; [vm_compute; discriminate|now apply lit_attribute]|].
  split; [repeat constructor; intros []|]. split.
  - intros l s s' r H. destruct l as [|y l]; [discriminate|]. apply (f_equal (@List.length node)) in H. cbn in H. rewrite app_length in H. cbn in H. lia.
  - split; [|exact I]. now apply (value_carried (PDict d)).
Qed.
Lemma lib_written d : well_formed S (PDict d) -> carried_value (PDict d) -> ~ has_uid (PDict d) ->
  exists x, value_element S (PDict d) = Some x /\
    lib_element S d = Some (Element (lit "plist") [(lit "version", lit "1.0")] [NElem (unblank x)]).
Proof.
  intros Hw Hc Hu. unfold lib_element. destruct (plist_tree S d) as [e|] eqn:E.
  - destruct (parse_print e (plist_carried d e Hw Hc E)) as (t & -> & ->). unfold plist_tree in E. destruct (value_element S (PDict d)) as [x|]; [|discriminate].
    injection E as <-. exists x. split; reflexivity.
  - exfalso. apply Hu, (value_element_none (PDict d)). unfold plist_tree in E. destruct (value_element S (PDict d)) as [x|]; [discriminate|reflexivity].
Qed.
Lemma lib_read_back d x : well_formed S (PDict d) -> named (PDict d) -> value_element S (PDict d) = Some x ->
  emptied (PDict d) = PDict (map (fun kv => let '(k, v) := kv in (k, emptied v)) d) /\
  lib_dictionary S (Element (lit "plist") [] [NElem (unblank x)]) = PlOk (map (fun kv => let '(k, v) := kv in (k, emptied v)) d).
Proof.
  intros Hw Hn H. split; [reflexivity|]. unfold lib_dictionary. cbn [echildren parts]. rewrite (value_read (PDict d) x Hw Hn H). reflexivity.
Qed.

(** ** What XML cannot carry *)
Lemma emit_child n a ch e level c : In (NElem e) ch -> (forall l, In c (emit l e)) -> In c (emit level (Element n a ch)).
Proof.
  intros He Hc. rewrite emit_eq. right. rewrite in_app_iff. right. rewrite in_app_iff. right. destruct ch as [|x t]; [destruct He|]. right. rewrite in_app_iff. left.
  remember (x :: t) as ch eqn:Ech. clear Ech. generalize false. induction ch as [|y ch IH]; intros b; [destruct He|].
  destruct He as [->|He].
  - cbn [emit_nodes]. rewrite !in_app_iff. right. left. apply Hc.
  - specialize (IH He). destruct y; cbn [emit_nodes]; rewrite ?in_app_iff; eauto.
Qed.
Lemma emit_text_char n a s level c : ~ document_char c -> In c s -> In c (emit level (Element n a (text_nodes s))).
Proof.
  intros Hd Hc. destruct s as [|d s]; [destruct Hc|]. rewrite emit_eq. right. rewrite in_app_iff. right. rewrite in_app_iff. right. cbn [text_nodes emit_nodes]. right.
  rewrite in_app_iff. left. rewrite in_app_iff. left. apply in_flat_map. exists c. split; [exact Hc|].
  assert (forall k, document_char k -> N.eqb c k = false) as Y by (intros k Hk; apply N.eqb_neq; now intros ->).
  unfold esc_text. rewrite !Y by (unfold document_char; lia). now left.
Qed.
Lemma value_chars v : forall e s c level, value_element S v = Some e -> text_in v s \/ key_in v s -> In c s -> ~ document_char c -> In c (emit level e).
Proof.
  induction v as [s|z|b|x|n|l IH|d IH] using pvalue_nested; intros e s' c level H Hs Hc Hd; cbn [value_element] in H.
  - injection H as <-. destruct Hs as [Hs|(d & y & Hs & _)]; inversion Hs; subst. now apply emit_text_char.
  - destruct Hs as [Hs|(d & y & Hs & _)]; inversion Hs.
  - destruct Hs as [Hs|(d & y & Hs & _)]; inversion Hs.
  - destruct Hs as [Hs|(d & y & Hs & _)]; inversion Hs.
  - discriminate.
  - destruct (item_nodes (value_element S) l) as [ch|] eqn:E; [|discriminate]. injection H as <-. apply item_nodes_in in E as (es & -> & F).
    assert (exists v, In v l /\ (text_in v s' \/ key_in v s')) as (v & Hv & Hvs).
    { destruct Hs as [Hs|(d & y & Hs & Hy)]; inversion Hs as [|? v ? Hv Hvs|]; subst; exists v; (split; [exact Hv|]); [now left|right; now exists d, y]. }
    assert (exists e, In e es /\ value_element S v = Some e) as (e & He & Hve).
    { clear - F Hv. induction F as [|w e l es He F IH]; [destruct Hv|]. destruct Hv as [<-|Hv]; [exists e; split; [now left|exact He]|].
      destruct (IH Hv) as (e' & ? & ?). exists e'. split; [now right|assumption]. }
    apply (emit_child _ _ _ e); [now apply in_map|]. intros lv. now apply (IH v Hv e s' c lv).
  - destruct (entry_nodes (value_element S) d) as [ch|] eqn:E; [|discriminate]. injection H as <-. apply entry_nodes_in in E as (es & -> & F).
    assert (exists k v, In (k, v) d /\ (s' = k \/ text_in v s' \/ key_in v s')) as (k & v & Hv & Hvs).
    { destruct Hs as [Hs|(d' & y & Hs & Hy)]; inversion Hs as [|? v ? Hv Hvs|? k v ? Hv Hvs]; subst.
      - exists k, v. split; [exact Hv|]. right. now left.
      - exists s', y. split; [exact Hy|now left].
      - exists k, v. split; [exact Hv|]. right. right. now exists d', y. }
    assert (exists e, In ((k, v), e) (combine d es) /\ value_element S v = Some e) as (e & He & Hve).
    { clear - F Hv. induction F as [|w e l es He F IH]; [destruct Hv|]. destruct Hv as [->|Hv]; [exists e; split; [now left|exact He]|].
      destruct (IH Hv) as (e' & ? & ?). exists e'. split; [now right|assumption]. }
    assert (forall y, y = tag "key" (text_nodes k) \/ y = e -> In (NElem y) (map NElem (concat (map (fun p => entry_elements (fst p) (snd p)) (combine d es))))) as Hin.
    { intros y Hy. apply in_map, in_concat. exists (entry_elements (k, v) e). split; [apply in_map_iff; exists ((k, v), e); now split|]. destruct Hy as [-> | ->]; [now left|right; now left]. }
    destruct Hvs as [->|Hvs].
    + apply (emit_child _ _ _ (tag "key" (text_nodes k))); [apply Hin; now left|]. intros lv. now apply emit_text_char.
    + apply (emit_child _ _ _ e); [apply Hin; now right|]. intros lv. now apply (IH k v Hv e s' c lv).
Qed.
Lemma lib_unwritable d : has_uid (PDict d) \/ (exists s c, (text_in (PDict d) s \/ key_in (PDict d) s) /\ In c s /\ ~ document_char c) -> lib_element S d = None.
Proof.
  intros H. unfold lib_element, plist_tree. destruct (value_element S (PDict d)) as [x|] eqn:E; [|reflexivity].
  destruct H as [H|(s & c & Hs & Hc & Hd)]; [apply value_element_none in H; congruence|].
  unfold print_xml, parse_xml.
  match goal with |- context [forallb xml_char ?t] => assert (forallb xml_char t = false) as -> end; [|reflexivity].
  apply not_true_iff_false. intros A. rewrite forallb_forall in A. apply Hd, xml_char_iff, A. rewrite !in_app_iff. right. right.
  apply (emit_child _ _ _ x); [now left|]. intros lv. now apply (value_chars (PDict d) x s c lv).
Qed.

(** ** Reading exactly *)
Lemma content_iff c s : content c = Some s <-> text_of c s.
Proof.
  split.
  - revert s. induction c as [|x c IH]; intros s H; [injection H as <-; constructor|]. destruct x as [e|t|t|]; cbn [content] in H; [discriminate| | |].
    + destruct (content c) as [r|]; [|discriminate]. injection H as <-. constructor. now apply IH.
    + destruct (content c) as [r|]; [|discriminate]. injection H as <-. constructor. now apply IH.
    + constructor. now apply IH.
  - induction 1 as [|t c r H IH|t c r H IH|c r H IH]; cbn [content]; [reflexivity|now rewrite IH|now rewrite IH|exact IH].
Qed.
Lemma parts_iff {B} (sub : element -> B) c l : parts sub c = Some l <-> exists es, elements_of c es /\ l = map (fun e => (e, sub e)) es.
Proof.
  split.
  - revert l. induction c as [|x c IH]; intros l H; [injection H as <-; exists []; split; [constructor|reflexivity]|].
    destruct x as [e|t|t|]; cbn [parts] in H; fold (parts sub c) in H; [| |discriminate|].
    + destruct (parts sub c) as [r|]; [|discriminate]. injection H as <-. destruct (IH r eq_refl) as (es & H1 & ->). exists (e :: es). split; [now constructor|reflexivity].
    + destruct (forallb xml_space t) eqn:E; [|discriminate]. destruct (IH l H) as (es & H1 & ->). exists es. split; [|reflexivity]. constructor; [exact (proj1 (blankb_iff t) E)|exact H1].
    + destruct (IH l H) as (es & H1 & ->). exists es. split; [now constructor|reflexivity].
  - intros (es & H & ->). induction H as [|e c r H IH|t c r Hb H IH|c r H IH]; cbn [parts].
    + reflexivity.
    + fold (parts sub c). now rewrite IH.
    + rewrite (proj2 (blankb_iff t) Hb : forallb xml_space t = true). exact IH.
    + exact IH.
Qed.
Lemma items_iff es l : items (map (fun e => (e, element_value S e)) es) = Some l <-> Forall2 (fun e v => element_value S e = Some v) es l.
Proof.
  split.
  - revert l. induction es as [|e es IH]; intros l H; [injection H as <-; constructor|]. cbn [map items] in H. destruct (element_value S e) as [v|] eqn:E; [|discriminate].
    destruct (items _) as [r|]; [|discriminate]. injection H as <-. constructor; [exact E|now apply IH].
  - induction 1 as [|e v es l H F IH]; [reflexivity|]. cbn [map items]. now rewrite H, IH.
Qed.
Definition inserted (l acc : list (str * pvalue X)) := fold_left (fun d kv => dict_insert (fst kv) (snd kv) d) l acc.
Lemma dict_insert_again k v v' (d d' : list (str * pvalue X)) : ~ In k (map fst d) -> dict_insert k v (d ++ (k, v') :: d') = d ++ (k, v) :: d'.
Proof.
  induction d as [|[k' w] d IH]; cbn [app dict_insert map fst In]; intros H; [now rewrite str_eqb_refl|]. rewrite str_eqb_neq by intuition. f_equal. apply IH. intuition.
Qed.
Lemma first_entry k (d : list (str * pvalue X)) : In k (map fst d) -> exists a v b, d = a ++ (k, v) :: b /\ ~ In k (map fst a).
Proof.
  induction d as [|[k' v] d IH]; [intros []|]. cbn [map fst In]. intros H. destruct (str_eqb_spec k k') as [<-|Hne].
  - exists [], v, d. split; [reflexivity|intros []].
  - destruct IH as (a & w & b & -> & Ha); [now destruct H; [congruence|]|]. exists ((k', v) :: a), w, b. split; [reflexivity|]. cbn. intuition.
Qed.
Lemma in_keys k (d : list (str * pvalue X)) : {In k (map fst d)} + {~ In k (map fst d)}.
Proof. apply in_dec. intros a b. destruct (str_eqb_spec a b); [now left|now right]. Qed.
Lemma dictionary_iff l d : dictionary_of l d <-> d = inserted l [].
Proof.
  split.
  - induction 1 as [|l d k v H IH Hk|l d d' k v v' H IH Hk]; [reflexivity| |]; unfold inserted in *; rewrite fold_left_app, <- IH; cbn [fold_left fst snd]; symmetry.
    + now apply dict_insert_new.
    + now apply dict_insert_again.
  - intros ->. induction l as [|[k v] l IH] using rev_ind; [constructor|]. unfold inserted in *. rewrite fold_left_app. cbn [fold_left fst snd].
    destruct (in_keys k (fold_left (fun d kv => dict_insert (fst kv) (snd kv) d) l [])) as [Hk|Hk].
    + destruct (first_entry _ _ Hk) as (a & w & b & E & Ha). rewrite E in IH |- *. rewrite dict_insert_again by exact Ha. now apply (DictAgain l a b k v w).
    + rewrite dict_insert_new by exact Hk. now constructor.
Qed.
Inductive paired (R : element -> pvalue X -> Prop) : list element -> list (str * pvalue X) -> Prop :=
| PairedNil : paired R [] []
| PairedCons a c k e v es l : text_of c k -> R e v -> paired R es l -> paired R (Element (lit "key") a c :: e :: es) ((k, v) :: l).
Lemma entries_iff es acc d : entries (map (fun e => (e, element_value S e)) es) acc = Some d <->
  exists l, paired (fun e v => element_value S e = Some v) es l /\ d = inserted l acc.
Proof.
  split.
  - assert (forall n es, (List.length es <= n)%nat -> forall acc, entries (map (fun e => (e, element_value S e)) es) acc = Some d ->
      exists l, paired (fun e v => element_value S e = Some v) es l /\ d = inserted l acc) as Y; [|now apply (Y (List.length es))].
    clear es acc. induction n as [|n IH]; intros es Hn acc H.
    + destruct es; [|cbn in Hn; lia]. injection H as <-. exists []. split; [constructor|reflexivity].
    + destruct es as [|[n0 a c] [|e es]]; [injection H as <-; exists []; split; [constructor|reflexivity]|discriminate|].
      cbn [map entries] in H. destruct (element_value S e) as [v|] eqn:E; [|discriminate]. destruct (str_eqb_spec n0 (lit "key")) as [->|_]; [|discriminate].
      destruct (content c) as [k|] eqn:Ec; [|discriminate]. apply IH in H as (l & Hl & ->); [|cbn in Hn; lia]. exists ((k, v) :: l). split; [|reflexivity].
      constructor; [now apply content_iff|exact E|exact Hl].
  - intros (l & H & ->). revert acc. induction H as [|a c k e v es l Hk He H IH]; intros acc; [reflexivity|]. cbn [map entries]. rewrite He, str_eqb_refl.
    rewrite (proj2 (content_iff c k) Hk). rewrite IH. reflexivity.
Qed.
Lemma reads_entries_iff es l : reads_entries S es l <-> paired (reads_as S) es l.
Proof. split; induction 1; constructor; assumption. Qed.
Lemma paired_impl (R R' : element -> pvalue X -> Prop) es l : (forall e v, In e es -> R e v -> R' e v) -> paired R es l -> paired R' es l.
Proof.
  intros H P. induction P as [|a c k e v es l Hk He P IH]; [constructor|]. constructor; [exact Hk|apply H; [right; now left|exact He]|]. apply IH. intros e' v' He'. apply H. right. now right.
Qed.
Lemma Forall2_weaken {A B} (R R' : A -> B -> Prop) l l' : (forall a b, In a l -> R a b -> R' a b) -> Forall2 R l l' -> Forall2 R' l l'.
Proof. intros H F. induction F as [|a b l l' Hab F IH]; constructor; [apply H; [now left|exact Hab]|apply IH; intros x y Hx; apply H; now right]. Qed.
Lemma elements_in c es e : elements_of c es -> In e es -> In (NElem e) c.
Proof. induction 1 as [|x c r H IH|t c r Hb H IH|c r H IH]; [intros []|intros [->|Hi]; [now left|right; now apply IH]| |]; intros Hi; right; now apply IH. Qed.
Lemma element_value_iff e : forall v, element_value S e = Some v <-> reads_as S e v.
Proof.
  induction e as [n a c IH] using element_nested. intros v. rewrite element_value_eq.
  destruct (str_eqb_spec n (lit "string")) as [->|N1].
  { split.
    - destruct (content c) as [s|] eqn:E; [|discriminate]. intros [= <-]. constructor. now apply content_iff.
    - intros H. inversion H; subst; try (exfalso; cbn in *; tauto). match goal with T : text_of _ _ |- _ => now rewrite (proj2 (content_iff _ _) T) end. }
  destruct (str_eqb_spec n (lit "integer")) as [->|N2].
  { split.
    - destruct (content c) as [s|] eqn:E; [|discriminate]. destruct (parse_integer s) as [z|] eqn:Ez; [|discriminate]. intros [= <-].
      apply (ReadsInteger S a c s); [now apply content_iff|now apply parse_integer_iff].
    - intros H. inversion H; subst; try (exfalso; cbn in *; tauto). match goal with T : text_of _ _, I : integer_text _ _ |- _ => rewrite (proj2 (content_iff _ _) T), (proj2 (parse_integer_iff _ _) I) end. reflexivity. }
  destruct (str_eqb_spec n (lit "true")) as [->|N3].
  { split.
    - destruct (content c) as [[|]|] eqn:E; try discriminate. intros [= <-]. constructor. now apply content_iff.
    - intros H. inversion H; subst; try (exfalso; cbn in *; tauto). match goal with T : text_of _ _ |- _ => now rewrite (proj2 (content_iff _ _) T) end. }
  destruct (str_eqb_spec n (lit "false")) as [->|N4].
  { split.
    - destruct (content c) as [[|]|] eqn:E; try discriminate. intros [= <-]. constructor. now apply content_iff.
    - intros H. inversion H; subst; try (exfalso; cbn in *; tauto). match goal with T : text_of _ _ |- _ => now rewrite (proj2 (content_iff _ _) T) end. }
  destruct (str_eqb_spec n (lit "array")) as [->|N5].
  { split.
    - destruct (parts (element_value S) c) as [l|] eqn:E; [|discriminate]. apply parts_iff in E as (es & Hes & ->).
      destruct (items _) as [r|] eqn:Ei; [|discriminate]. intros [= <-]. apply items_iff in Ei. apply (ReadsArray S a c es); [exact Hes|].
      apply (Forall2_weaken _ _ _ _ (fun e v He => proj1 (IH e (elements_in c es e Hes He) v)) Ei).
    - intros H. inversion H as [| | | |? ? ? ? ? Hn| ? ? es l Hes F |]; subst; try (exfalso; cbn in *; tauto).
      rewrite (proj2 (parts_iff (element_value S) c _) (ex_intro _ es (conj Hes eq_refl))).
      rewrite (proj2 (items_iff es l)); [reflexivity|]. apply (Forall2_weaken _ _ _ _ (fun e v He => proj2 (IH e (elements_in c es e Hes He) v)) F). }
  destruct (str_eqb_spec n (lit "dict")) as [->|N6].
  { split.
    - destruct (parts (element_value S) c) as [l|] eqn:E; [|discriminate]. apply parts_iff in E as (es & Hes & ->).
      destruct (entries _ []) as [r|] eqn:Ei; [|discriminate]. intros [= <-]. apply entries_iff in Ei as (l & Hl & ->). apply (ReadsDict S a c es l); [exact Hes| |now apply dictionary_iff].
      apply reads_entries_iff. apply (paired_impl _ _ _ _ (fun e v He => proj1 (IH e (elements_in c es e Hes He) v)) Hl).
    - intros H. inversion H as [| | | |? ? ? ? ? Hn| |? ? es l d Hes Hl Hd]; subst; try (exfalso; cbn in *; tauto).
      rewrite (proj2 (parts_iff (element_value S) c _) (ex_intro _ es (conj Hes eq_refl))).
      rewrite (proj2 (entries_iff es [] d)); [reflexivity|]. exists l. split; [|now apply dictionary_iff]. apply reads_entries_iff in Hl.
      apply (paired_impl _ _ _ _ (fun e v He => proj2 (IH e (elements_in c es e Hes He) v)) Hl). }
  split.
  - destruct (content c) as [s|] eqn:E; [|discriminate]. destruct (scalar_read S n s) as [x|] eqn:Ex; [|discriminate]. intros [= <-].
    apply (ReadsScalar S n a c s); [|now apply content_iff|exact Ex]. cbn [In]. intuition congruence.
  - intros H. inversion H; subst; try congruence. match goal with T : text_of _ _, R : scalar_read _ _ _ = Some _ |- _ => now rewrite (proj2 (content_iff _ _) T), R end.
Qed.
Lemma lib_dictionary_iff e d : lib_dictionary S e = PlOk d <-> exists root, elements_of (echildren e) [root] /\ reads_as S root (PDict d).
Proof.
  unfold lib_dictionary. split.
  - destruct (parts (element_value S) (echildren e)) as [[|[r [v|]] [|]]|] eqn:E; try discriminate; destruct v; try discriminate. intros [= <-].
    apply parts_iff in E as (es & Hes & E). destruct es as [|x [|]]; try discriminate. injection E as <- E. exists r. split; [exact Hes|]. now apply element_value_iff.
  - intros (root & He & Hr). rewrite (proj2 (parts_iff (element_value S) (echildren e) [(root, element_value S root)]) (ex_intro _ [root] (conj He eq_refl))).
    apply element_value_iff in Hr. now rewrite Hr.
Qed.
Lemma lib_dictionary_not e : lib_dictionary S e <> PlWriteError.
Proof. unfold lib_dictionary. destruct (parts (element_value S) (echildren e)) as [[|[r [v|]] [|]]|]; try discriminate; destruct v; discriminate. Qed.

(** ** Values whose blank texts are empty *)
Lemma held_emptied v : forall w, held (emptied v) w -> exists u, held v u /\ w = emptied u.
Proof.
  induction v as [s|z|b|x|n|l IH|d IH] using pvalue_nested; intros w H; cbn [emptied] in H.
  1-5: inversion H; subst; eexists; split; [constructor|reflexivity].
  - inversion H as [|? u ? Hu Hw|]; subst; [exists (PArray l); split; [constructor|reflexivity]|].
    apply in_map_iff in Hu as (v & <- & Hv). destruct (IH v Hv w Hw) as (u & Hu & ->). exists u. split; [now apply (HeldArray l v)|reflexivity].
  - inversion H as [| |? k u ? Hu Hw]; subst; [exists (PDict d); split; [constructor|reflexivity]|].
    apply in_map_iff in Hu as ([k' v] & [= -> <-] & Hv). destruct (IH k v Hv w Hw) as (u & Hu & ->). exists u. split; [now apply (HeldDict d k v)|reflexivity].
Qed.
Lemma keys_emptied (d : list (str * pvalue X)) : map fst (map (fun kv => let '(k, v) := kv in (k, emptied v)) d) = map fst d.
Proof. induction d as [|[k v] d IH]; [reflexivity|]. cbn [map fst]. now rewrite IH. Qed.
Lemma well_formed_emptied v : well_formed S v -> well_formed S (emptied v).
Proof.
  intros (H1 & H2 & H3). split; [|split]; intros w Hw; apply held_emptied in Hw as (u & Hu & E); destruct u; cbn [emptied] in E; try discriminate; injection E as ->.
  - now apply H1.
  - rewrite keys_emptied. now apply H2.
  - now apply H3.
Qed.
Lemma key_emptied v k : key_in (emptied v) k -> key_in v k.
Proof.
  intros (d & x & Hd & Hk). apply held_emptied in Hd as (u & Hu & E). destruct u; cbn [emptied] in E; try discriminate. injection E as ->.
  apply in_map_iff in Hk as ([k' v'] & [= -> <-] & Hk). exists d0, v'. now split.
Qed.
Lemma carried_emptied (v : pvalue X) : carried_value v -> carried_value (emptied v).
Proof.
  intros H s [Hs|Hs].
  - apply held_emptied in Hs as (u & Hu & E). destruct u as [t| | | | | |]; cbn [emptied] in E; try discriminate. injection E as ->. apply plain_emptied, H. now left.
  - apply H. right. now apply key_emptied.
Qed.
Lemma named_emptied (v : pvalue X) : named v -> named (emptied v).
Proof. intros H k Hk. now apply H, key_emptied. Qed.
Lemma emptied_text_full s : emptied_text s = [] \/ ~ all_blank (emptied_text s).
Proof.
  unfold emptied_text. destruct (blankb s) eqn:E; [now left|right]. intros H. apply blankb_false in E as (c & Hc & Hb). now apply Hb, H.
Qed.
Lemma uid_emptied v : has_uid (emptied v) -> has_uid v.
Proof. intros (n & H). apply held_emptied in H as (u & Hu & E). destruct u; cbn [emptied] in E; try discriminate. injection E as ->. now exists n0. Qed.
Lemma emptied_text_blank s : s = [] \/ ~ all_blank s <-> emptied_text s = s.
Proof.
  unfold emptied_text. destruct (blankb s) eqn:E.
  - split; [|intros <-; now left]. intros [->|H]; [reflexivity|]. exfalso. exact (H (proj1 (blankb_iff s) E)).
  - split; [reflexivity|]. intros _. right. intros H. apply blankb_false in E as (c & Hc & Hb). now apply Hb, H.
Qed.
Lemma emptied_same v : (forall s, text_in v s -> s = [] \/ ~ all_blank s) <-> emptied v = v.
Proof.
  induction v as [s|z|b|x|n|l IH|d IH] using pvalue_nested; cbn [emptied].
  - split; [intros H; f_equal; apply emptied_text_blank, H; constructor|]. intros [= E] t Ht. inversion Ht; subst. now apply emptied_text_blank.
  - split; [reflexivity|]. intros _ s H. inversion H.
  - split; [reflexivity|]. intros _ s H. inversion H.
  - split; [reflexivity|]. intros _ s H. inversion H.
  - split; [reflexivity|]. intros _ s H. inversion H.
  - split.
    + intros H. f_equal. rewrite <- (map_id l) at 2. apply map_ext_in. intros v Hv. apply (IH v Hv). intros s Hs. apply H. now apply (HeldArray l v).
    + intros [= E] s Hs. inversion Hs as [|? v ? Hv Hw|]; subst. apply (proj2 (IH v Hv)); [|exact Hw].
      clear - E Hv. induction l as [|w l IH]; [destruct Hv|]. injection E as E1 E2. destruct Hv as [->|Hv]; [exact E1|now apply IH].
  - split.
    + intros H. f_equal. rewrite <- (map_id d) at 2. apply map_ext_in. intros [k v] Hv. f_equal. apply (IH k v Hv). intros s Hs. apply H. now apply (HeldDict d k v).
    + intros [= E] s Hs. inversion Hs as [| |? k v ? Hv Hw]; subst. apply (proj2 (IH k v Hv)); [|exact Hw].
      clear - E Hv. induction d as [|[k' w] d IH]; [destruct Hv|]. injection E as E1 E2. destruct Hv as [[= -> ->]|Hv]; [exact E1|now apply IH].
Qed.
Lemma value_element_emptied v : well_formed S v -> named v -> value_element S (emptied v) = option_map unblank (value_element S v).
Proof.
  induction v as [s|z|b|x|n|l IH|d IH] using pvalue_nested; intros Hw Hn; cbn [value_element emptied option_map].
  - unfold tag. cbn [unblank]. now rewrite unblank_text.
  - unfold tag. cbn [unblank]. rewrite unblank_text. unfold emptied_text. now rewrite (proj2 (blankb_false _) (show_int_nonblank z)).
  - now destruct b.
  - destruct (proj2 (proj2 Hw) x (Held _)) as (_ & _ & H & _). destruct (scalar_show S x) as [n s]. cbn [option_map unblank snd] in *. rewrite unblank_text.
    unfold emptied_text. now rewrite (proj2 (blankb_false _) H).
  - reflexivity.
  - assert (item_nodes (value_element S) (map emptied l) = option_map (unblank_nodes unblank) (item_nodes (value_element S) l)) as ->.
    2: now destruct (item_nodes (value_element S) l).
    assert (forall v, In v l -> well_formed S v /\ named v) as Hl by (intros v Hv; split; [now apply (well_formed_item l)|now apply (named_item l)]).
    clear Hw Hn. induction l as [|v l IHl]; [reflexivity|]. cbn [map item_nodes]. fold (item_nodes (value_element S) (map emptied l)) (item_nodes (value_element S) l).
    rewrite IHl; [|intros w Hw; apply IH; now right|intros w Hw; apply Hl; now right]. destruct (Hl v (or_introl eq_refl)) as [W M].
    rewrite (IH v (or_introl eq_refl) W M). destruct (value_element S v); [|reflexivity]. now destruct (item_nodes (value_element S) l).
  - assert (entry_nodes (value_element S) (map (fun kv => let '(k, v) := kv in (k, emptied v)) d) = option_map (unblank_nodes unblank) (entry_nodes (value_element S) d)) as ->.
    2: now destruct (entry_nodes (value_element S) d).
    assert (forall k v, In (k, v) d -> well_formed S v /\ named v /\ emptied_text k = k) as Hl.
    { intros k v Hv; split; [now apply (well_formed_entry d k)|]. split; [now apply (named_entry d k)|]. apply emptied_text_blank. now apply (named_key d k v). }
    clear Hw Hn. induction d as [|[k v] d IHd]; [reflexivity|]. cbn [map entry_nodes].
    fold (entry_nodes (value_element S) (map (fun kv => let '(k, v) := kv in (k, emptied v)) d)) (entry_nodes (value_element S) d).
    rewrite IHd; [|intros k' w Hw; apply (IH k'); now right|intros k' w Hw; apply (Hl k'); now right]. destruct (Hl k v (or_introl eq_refl)) as (W & M & Ek).
    rewrite (IH k v (or_introl eq_refl) W M). destruct (value_element S v); [|reflexivity]. destruct (entry_nodes (value_element S) d); [|reflexivity].
    cbn [option_map unblank_nodes]. do 2 f_equal. unfold tag. cbn [unblank]. now rewrite unblank_text, Ek.
Qed.
Lemma lib_element_emptied d : well_formed S (PDict d) -> carried_value (PDict d) -> ~ has_uid (PDict d) -> named (PDict d) ->
  lib_element S (map (fun kv => let '(k, v) := kv in (k, emptied v)) d) = lib_element S d.
Proof.
  intros Hw Hc Hu Hn. destruct (lib_written d Hw Hc Hu) as (x & Hx & ->).
  destruct (lib_written (map (fun kv => let '(k, v) := kv in (k, emptied v)) d)) as (y & Hy & ->).
  - exact (well_formed_emptied (PDict d) Hw).
  - exact (carried_emptied (PDict d) Hc).
  - intros H. apply Hu. exact (uid_emptied (PDict d) H).
  - pose proof (value_element_emptied (PDict d) Hw Hn) as E. change (emptied (PDict d)) with (PDict (map (fun kv => let '(k, v) := kv in (k, emptied v)) d)) in E.
    rewrite Hy, Hx in E. injection E as ->. now rewrite unblank_again.
Qed.
End Plist.
