(** How XML documents are spelt, for C107: which texts say which trees, after the productions of
    XML 1.0.  Simplified: any character that is not ASCII may stand in names; comments, processing
    instructions and document types may hold anything but their end; namespaces are not looked at. *)
Require Import Coq.Lists.List Coq.NArith.NArith Coq.Strings.String.
Require Import Verif.Model.Base Verif.Model.Text Verif.Model.Xml Verif.Spec.TextSpec Verif.Spec.XmlTextSpec.
Import ListNotations.
Local Open Scope N_scope.
Local Open Scope list_scope.

(** White space (3) and names (4, 4a, 5). *)
Definition blanks (w : str) : Prop := Forall blank w.
Definition name_first (c : N) : Prop := 65 <= c <= 90 \/ 97 <= c <= 122 \/ c = 95 \/ c = 58 \/ 128 <= c.
Definition xml_name (s : str) : Prop :=
  exists c t, s = c :: t /\ name_first c /\ Forall (fun d => name_first d \/ 48 <= d <= 57 \/ d = 45 \/ d = 46) t.

(** What stands between `&` and `;`, and the character it stands for (66, 68). *)
Inductive stands_for : str -> N -> Prop :=
| stands_lt : stands_for (lit "lt") 60
| stands_gt : stands_for (lit "gt") 62
| stands_amp : stands_for (lit "amp") 38
| stands_apos : stands_for (lit "apos") 39
| stands_quot : stands_for (lit "quot") 34
| stands_decimal ds c : denotes 10 ds c -> document_char c -> stands_for (lit "#" ++ ds) c
| stands_hexadecimal ds c : denotes 16 ds c -> document_char c -> stands_for (lit "#x" ++ ds) c.
(** Characters as they are or as references (10, 14, 67), and the text they spell. *)
Inductive spells : str -> str -> Prop :=
| spells_nothing : spells [] []
| spells_char c r s : c <> 38 -> c <> 60 -> spells r s -> spells (c :: r) (c :: s)
| spells_reference b c r s : stands_for b c -> spells r s -> spells (lit "&" ++ b ++ lit ";" ++ r) (c :: s).

(** Attributes with the white space before, among and behind them (40, 41, 25): either quotes, each
    name once. *)
Inductive attributes_text : str -> list (str * str) -> Prop :=
| no_attributes w : blanks w -> attributes_text w []
| one_attribute w n w1 w2 q raw v t l :
    blanks w -> w <> [] -> xml_name n -> blanks w1 -> blanks w2 -> (q = 34 \/ q = 39) -> ~ In q raw -> spells raw v ->
    attributes_text t l -> ~ In n (map fst l) ->
    attributes_text (w ++ n ++ w1 ++ lit "=" ++ w2 ++ [q] ++ raw ++ [q] ++ t) ((n, v) :: l).

(** A text without the other one in it. *)
Definition free_of (p s : str) : Prop := forall a b, s <> a ++ p ++ b.
(** Comments and processing instructions (15, 16). *)
Definition aside (t : str) : Prop :=
  (exists u, t = lit "<!--" ++ u ++ lit "-->" /\ free_of (lit "-->") u) \/ (exists u, t = lit "<?" ++ u ++ lit "?>" /\ free_of (lit "?>") u).

(** Elements (39, 40, 42, 44); what is in them (43): runs of white space or text between markup. *)
Inductive element_text : str -> element -> Prop :=
| empty_element n t a : xml_name n -> attributes_text t a -> element_text (lit "<" ++ n ++ t ++ lit "/>") (Element n a [])
| full_element n t a c l w : xml_name n -> attributes_text t a -> content c l -> blanks w ->
    element_text (lit "<" ++ n ++ t ++ lit ">" ++ c ++ lit "</" ++ n ++ w ++ lit ">") (Element n a l)
with content : str -> list node -> Prop :=
| layout_first w t l : blanks w -> markup t l -> content (w ++ t) l
| text_first raw s t l : spells raw s -> ~ blanks raw -> markup t l -> content (raw ++ t) (NText s :: l)
with markup : str -> list node -> Prop :=
| no_markup : markup [] []
| element_first t e c l : element_text t e -> content c l -> markup (t ++ c) (NElem e :: l)
| cdata_first s c l : free_of (lit "]]>") s -> content c l -> markup (lit "<![CDATA[" ++ s ++ lit "]]>" ++ c) (NCData s :: l)
| aside_first t c l : aside t -> content c l -> markup (t ++ c) (NOther :: l).

(** What may stand before the element of a document (22, 28) and after it (27). *)
Inductive before : str -> Prop :=
| before_end w : blanks w -> before w
| before_aside w t b : blanks w -> aside t -> before b -> before (w ++ t ++ b)
| before_doctype w u b : blanks w -> ~ In 62 u -> before b -> before (w ++ lit "<!DOCTYPE" ++ u ++ lit ">" ++ b).
Inductive after : str -> Prop :=
| after_end w : blanks w -> after w
| after_aside w t b : blanks w -> aside t -> after b -> after (w ++ t ++ b).

(** The text is a document that says the tree (1). *)
Definition document (t : str) (e : element) : Prop :=
  Forall document_char t /\ exists b m a, t = b ++ m ++ a /\ before b /\ element_text m e /\ after a.
