(** Property lists inside `lib` elements, after Apple's document type and the documentation of the
    crate `plist` (not in /repo): an instance of [plistlib].  The theorems that take the property
    list library as a parameter hold of any other as well; this one shows what becomes of the
    values.  Simplifications: of real numbers, dates and data only the name of the element and the
    text are looked at, through the parameter [S]. *)
Require Import Coq.Strings.String Coq.Lists.List Coq.Bool.Bool Coq.NArith.NArith Coq.ZArith.ZArith.
Require Import Verif.Model.Base Verif.Model.Text Verif.Model.Xml Verif.Model.XmlText Verif.Model.Parts.
Import ListNotations.
Local Open Scope list_scope.

(** The other values without parts (reals, dates, data; [X]): the element and its text, and what is
    read from them.  src/glif/write.rs L94, src/glif/read.rs L294. *)
Record scalars (X : Type) := mkScalars {
  scalar_show : X -> str * str;
  scalar_read : str -> str -> option X
}.
Arguments scalar_show {X}.
Arguments scalar_read {X}.
Arguments mkScalars {X}.

(** `plist::Value`; a dictionary is a list of its entries in order.  src/glif/lib.rs L10. *)
Inductive pvalue (X : Type) :=
| PText (s : str) | PInteger (z : Z) | PBool (b : bool) | PScalar (x : X) | PUid (n : N)
| PArray (l : list (pvalue X)) | PDict (d : list (str * pvalue X)).
Arguments PText {X}.
Arguments PInteger {X}.
Arguments PBool {X}.
Arguments PScalar {X}.
Arguments PUid {X}.
Arguments PArray {X}.
Arguments PDict {X}.

Section Plist.
Context {X : Type} (S : scalars X).

(** An element without attributes, src/glif/write.rs L94. *)
Definition tag (name : string) (c : list node) : element := Element (lit name) [] c.
(** The text of an element, src/glif/write.rs L94. *)
Definition text_nodes (s : str) : list node := match s with [] => [] | _ => [NText s] end.

(** `plist::to_writer_xml` for a value, and [None] for uids, which XML property lists do not have.
    src/glif/write.rs L94. *)
Definition entry_nodes (sub : pvalue X -> option element) : list (str * pvalue X) -> option (list node) :=
  fix all (d : list (str * pvalue X)) : option (list node) :=
    match d with
    | [] => Some []
    | (k, v) :: t =>
        match sub v, all t with
        | Some e, Some c => Some (NElem (tag "key" (text_nodes k)) :: NElem e :: c)
        | _, _ => None
        end
    end.
(** The same for arrays, src/glif/write.rs L94. *)
Definition item_nodes (sub : pvalue X -> option element) : list (pvalue X) -> option (list node) :=
  fix all (l : list (pvalue X)) : option (list node) :=
    match l with
    | [] => Some []
    | v :: t => match sub v, all t with Some e, Some c => Some (NElem e :: c) | _, _ => None end
    end.
(** src/glif/write.rs L94. *)
Fixpoint value_element (v : pvalue X) : option element :=
  match v with
  | PText s => Some (tag "string" (text_nodes s))
  | PInteger z => Some (tag "integer" (text_nodes (show_int z)))
  | PBool b => Some (tag (if b then "true" else "false") [])
  | PScalar x => let '(n, s) := scalar_show S x in Some (Element n [] (text_nodes s))
  | PUid _ => None
  | PArray l => match item_nodes value_element l with Some c => Some (tag "array" c) | None => None end
  | PDict d => match entry_nodes value_element d with Some c => Some (tag "dict" c) | None => None end
  end.
(** The document of a dictionary, src/glif/write.rs L94. *)
Definition plist_tree (d : list (str * pvalue X)) : option element :=
  match value_element (PDict d) with
  | Some e => Some (Element (lit "plist") [(lit "version", lit "1.0")] [NElem e])
  | None => None
  end.
(** `plist::to_writer_xml` and `Element::parse` of what it wrote, src/glif/write.rs L94-106.
    Simplification: the text is the one of [print_xml], with other indentation and without the
    document type, which the parser skips. *)
Definition lib_element (d : list (str * pvalue X)) : option element :=
  match plist_tree d with
  | Some e => match print_xml e with Some t => parse_xml t | None => None end
  | None => None
  end.

(** `Integer::from_str` within [-2^63, 2^64).  Simplification: no hexadecimal numbers.
    src/glif/read.rs L294. *)
Definition parse_integer (s : str) : option Z :=
  match s with
  | 45%N :: t => match t with
                 | [] => None
                 | _ => match digits_val 10 t 0 with
                        | Some n => if (n <=? 2 ^ 63)%N then Some (- Z.of_N n)%Z else None
                        | None => None
                        end
                 end
  | _ => match parse_u64 s with Some n => Some (Z.of_N n) | None => None end
  end.
(** The text of an element that has no elements in it, src/glif/read.rs L294. *)
Fixpoint content (c : list node) : option str :=
  match c with
  | [] => Some []
  | NElem _ :: _ => None
  | NText s :: t => match content t with Some r => Some (s ++ r) | None => None end
  | NCData s :: t => match content t with Some r => Some (s ++ r) | None => None end
  | NOther :: t => content t
  end.
(** The elements in an element that has no text in it but blanks, with what [sub] reads in them.
    src/glif/read.rs L294. *)
Definition parts {B} (sub : element -> B) : list node -> option (list (element * B)) :=
  fix all (c : list node) : option (list (element * B)) :=
    match c with
    | [] => Some []
    | NElem e :: t => match all t with Some r => Some ((e, sub e) :: r) | None => None end
    | NText s :: t => if forallb xml_space s then all t else None
    | NCData s :: t => None
    | NOther :: t => all t
    end.
(** The items of an array, src/glif/read.rs L294. *)
Fixpoint items (l : list (element * option (pvalue X))) : option (list (pvalue X)) :=
  match l with
  | [] => Some []
  | (_, Some v) :: t => match items t with Some r => Some (v :: r) | None => None end
  | (_, None) :: _ => None
  end.
(** `Dictionary::insert`: a repeated key gives the first entry a new value.  src/glif/read.rs L294. *)
Fixpoint dict_insert (k : str) (v : pvalue X) (d : list (str * pvalue X)) : list (str * pvalue X) :=
  match d with
  | [] => [(k, v)]
  | (k', v') :: t => if str_eqb k k' then (k', v) :: t else (k', v') :: dict_insert k v t
  end.
(** The entries of a dictionary, after those already read.  src/glif/read.rs L294. *)
Fixpoint entries (l : list (element * option (pvalue X))) (d : list (str * pvalue X)) : option (list (str * pvalue X)) :=
  match l with
  | [] => Some d
  | (Element n _ c, _) :: (_, Some v) :: t =>
      if str_eqb n (lit "key")
      then match content c with Some k => entries t (dict_insert k v d) | None => None end
      else None
  | _ => None
  end.
(** A value, src/glif/read.rs L294. *)
Fixpoint element_value (e : element) : option (pvalue X) :=
  let 'Element n _ c := e in
  if str_eqb n (lit "string") then match content c with Some s => Some (PText s) | None => None end
  else if str_eqb n (lit "integer") then
    match content c with
    | Some s => match parse_integer s with Some z => Some (PInteger z) | None => None end
    | None => None
    end
  else if str_eqb n (lit "true") then match content c with Some [] => Some (PBool true) | _ => None end
  else if str_eqb n (lit "false") then match content c with Some [] => Some (PBool false) | _ => None end
  else if str_eqb n (lit "array") then
    match parts element_value c with
    | Some l => match items l with Some r => Some (PArray r) | None => None end
    | None => None
    end
  else if str_eqb n (lit "dict") then
    match parts element_value c with
    | Some l => match entries l [] with Some r => Some (PDict r) | None => None end
    | None => None
    end
  else match content c with
       | Some s => match scalar_read S n s with Some x => Some (PScalar x) | None => None end
       | None => None
       end.
(** `lib.write` and `plist::from_bytes`, src/glif/read.rs L292-302: the document holds one
    dictionary.  Simplification: writing into memory does not fail. *)
Definition lib_dictionary (e : element) : plist_outcome (list (str * pvalue X)) :=
  match parts element_value (echildren e) with
  | Some [(_, Some (PDict d))] => PlOk d
  | _ => PlBad
  end.
(** src/glif/read.rs L290-304, src/glif/write.rs L90-118. *)
Definition xml_plist : plistlib (list (str * pvalue X)) := mkPlist _ lib_dictionary lib_element.
End Plist.
