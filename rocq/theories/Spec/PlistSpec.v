(** Property lists in lib elements, for C108. *)
Require Import Coq.Strings.String Coq.Lists.List Coq.NArith.NArith Coq.ZArith.ZArith.
Require Import Verif.Model.Base Verif.Model.Text Verif.Model.Xml Verif.Model.Parts Verif.Model.Plist Verif.Spec.TextSpec Verif.Spec.XmlTextSpec.
Import ListNotations.
Local Open Scope list_scope.

Section Plist.
Context {X : Type} (S : scalars X).

(** ** Values *)
(** The value [w] is [v] or stands somewhere inside it. *)
Inductive held : pvalue X -> pvalue X -> Prop :=
| Held v : held v v
| HeldArray l v w : In v l -> held v w -> held (PArray l) w
| HeldDict d k v w : In (k, v) d -> held v w -> held (PDict d) w.
(** The texts and the keys in a value. *)
Definition text_in (v : pvalue X) (s : str) : Prop := held v (PText s).
Definition key_in (v : pvalue X) (k : str) : Prop := exists d x, held v (PDict d) /\ In (k, x) d.

Definition all_blank (s : str) : Prop := forall c, In c s -> blank c.
(** What the types of the crate allow, and scalars (reals, dates, data) whose text is read back. *)
Definition scalar_ok (x : X) : Prop :=
  In (fst (scalar_show S x)) [lit "real"; lit "date"; lit "data"] /\ plain_text (snd (scalar_show S x)) /\
  (exists c, In c (snd (scalar_show S x)) /\ ~ blank c) /\ scalar_read S (fst (scalar_show S x)) (snd (scalar_show S x)) = Some x.
Definition well_formed (v : pvalue X) : Prop :=
  (forall z, held v (PInteger z) -> (- 2 ^ 63 <= z < 2 ^ 64)%Z) /\
  (forall d, held v (PDict d) -> NoDup (map fst d)) /\
  (forall x, held v (PScalar x) -> scalar_ok x).
(** XML has no uids and not all characters. *)
Definition has_uid (v : pvalue X) : Prop := exists n, held v (PUid n).
Definition carried_value (v : pvalue X) : Prop := forall s, text_in v s \/ key_in v s -> plain_text s.
Definition named (v : pvalue X) : Prop := forall k, key_in v k -> k = [] \/ ~ all_blank k.

(** The same value but for texts of nothing but blanks, which became empty. *)
Inductive blanks_lost : pvalue X -> pvalue X -> Prop :=
| LostText s : ~ all_blank s -> blanks_lost (PText s) (PText s)
| LostBlank s : all_blank s -> blanks_lost (PText s) (PText [])
| LostInteger z : blanks_lost (PInteger z) (PInteger z)
| LostBool b : blanks_lost (PBool b) (PBool b)
| LostScalar x : blanks_lost (PScalar x) (PScalar x)
| LostArray l l' : Forall2 blanks_lost l l' -> blanks_lost (PArray l) (PArray l')
| LostDict d d' : Forall2 (fun a b => fst a = fst b /\ blanks_lost (snd a) (snd b)) d d' -> blanks_lost (PDict d) (PDict d').

(** ** Elements *)
(** Elements with text only: all their text.  Comments and the like do not count. *)
Inductive text_of : list node -> str -> Prop :=
| TextNil : text_of [] []
| TextText s c r : text_of c r -> text_of (NText s :: c) (s ++ r)
| TextCData s c r : text_of c r -> text_of (NCData s :: c) (s ++ r)
| TextOther c r : text_of c r -> text_of (NOther :: c) r.
(** Elements with elements only: they may be set apart by blanks. *)
Inductive elements_of : list node -> list element -> Prop :=
| ElementsNil : elements_of [] []
| ElementsElem e c r : elements_of c r -> elements_of (NElem e :: c) (e :: r)
| ElementsBlank s c r : all_blank s -> elements_of c r -> elements_of (NText s :: c) r
| ElementsOther c r : elements_of c r -> elements_of (NOther :: c) r.
(** Integers in decimal digits, perhaps with a sign, of the range of the crate. *)
Definition integer_text (s : str) (z : Z) : Prop :=
  (exists n, unsigned_text 10 s n /\ z = Z.of_N n /\ (n < 2 ^ 64)%N) \/
  (exists t n, s = 45%N :: t /\ denotes 10 t n /\ z = (- Z.of_N n)%Z /\ (n <= 2 ^ 63)%N).
(** Dictionaries: a new key goes to the end, a repeated key has its last value. *)
Inductive dictionary_of : list (str * pvalue X) -> list (str * pvalue X) -> Prop :=
| DictNil : dictionary_of [] []
| DictNew l d k v : dictionary_of l d -> ~ In k (map fst d) -> dictionary_of (l ++ [(k, v)]) (d ++ [(k, v)])
| DictAgain l d d' k v v' : dictionary_of l (d ++ (k, v') :: d') -> ~ In k (map fst d) -> dictionary_of (l ++ [(k, v)]) (d ++ (k, v) :: d').

(** The value of an element. *)
Inductive reads_as : element -> pvalue X -> Prop :=
| ReadsText a c s : text_of c s -> reads_as (Element (lit "string") a c) (PText s)
| ReadsInteger a c s z : text_of c s -> integer_text s z -> reads_as (Element (lit "integer") a c) (PInteger z)
| ReadsTrue a c : text_of c [] -> reads_as (Element (lit "true") a c) (PBool true)
| ReadsFalse a c : text_of c [] -> reads_as (Element (lit "false") a c) (PBool false)
| ReadsScalar n a c s x : ~ In n [lit "string"; lit "integer"; lit "true"; lit "false"; lit "array"; lit "dict"] ->
    text_of c s -> scalar_read S n s = Some x -> reads_as (Element n a c) (PScalar x)
| ReadsArray a c es l : elements_of c es -> Forall2 reads_as es l -> reads_as (Element (lit "array") a c) (PArray l)
| ReadsDict a c es l d : elements_of c es -> reads_entries es l -> dictionary_of l d -> reads_as (Element (lit "dict") a c) (PDict d)
with reads_entries : list element -> list (str * pvalue X) -> Prop :=
| EntriesNil : reads_entries [] []
| EntriesCons a c k e v es l : text_of c k -> reads_as e v -> reads_entries es l ->
    reads_entries (Element (lit "key") a c :: e :: es) ((k, v) :: l).
End Plist.

(** The glyph without its lib. *)
Definition libless {PD PL} (g : glif PD PL) : glif PD PL :=
  mkGlif (g_outline g) (g_anchors g) (g_components g) (g_guidelines g) (g_images g) (g_width g) (g_unicode g) (g_name g) (g_note g) (g_filename g) LNone.
