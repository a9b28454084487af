(** Element trees of the crate `xmltree` (not in /repo): the operations used by the reader and
    the writer.  Simplifications: namespaces and prefixes are not represented; comments and
    processing instructions are one kind of ignored node. *)
Require Import Coq.Lists.List Coq.NArith.NArith Coq.Strings.String.
Require Import Verif.Model.Base Verif.Model.Text.
Import ListNotations.

(** xmltree::Element (external crate), src/glif/read.rs L75-82, src/glif/write.rs L44-118. *)
Inductive element := Element (ename : str) (eattrs : list (str * str)) (echildren : list node)
with node := NElem (e : element) | NText (s : str) | NCData (s : str) | NOther.

(** `Element::name`, src/glif/read.rs L75-82. *)
Definition ename (e : element) : str := let 'Element n _ _ := e in n.
(** `Element::attributes`, src/glif/read.rs L83. *)
Definition eattrs (e : element) : list (str * str) := let 'Element _ a _ := e in a.
(** `Element::children`, src/glif/write.rs L51-116. *)
Definition echildren (e : element) : list node := let 'Element _ _ c := e in c.

(** `Element::new(name)`
    src/glif/write.rs L46. *)
Definition new_element (name : string) : element := Element (lit name) [] [].

(** `attributes.get(k)` (IndexMap)
    src/glif/read.rs L83, L90. *)
Fixpoint attr_get (k : str) (a : list (str * str)) : option str :=
  match a with
  | [] => None
  | (k', v) :: t => if str_eqb k k' then Some v else attr_get k t
  end.
(** src/glif/read.rs L83, L90. *)
Definition get (e : element) (k : string) : option str := attr_get (lit k) (eattrs e).

(** `attributes.insert(k, v)`: replaces the value of an existing key, else appends.
    src/glif/write.rs L47-48, src/point/xml.rs L9-14. *)
Fixpoint attr_insert (k v : str) (a : list (str * str)) : list (str * str) :=
  match a with
  | [] => [(k, v)]
  | (k', v') :: t => if str_eqb k k' then (k', v) :: t else (k', v') :: attr_insert k v t
  end.
(** src/glif/write.rs L47-48, src/point/xml.rs L9-14. *)
Definition insert (k : string) (v : str) (e : element) : element :=
  let 'Element n a c := e in Element n (attr_insert (lit k) v a) c.
(** `if let Some(..) { attributes.insert(..) }`, src/anchor/xml.rs L11-13. *)
Definition insert_opt (k : string) (o : option str) (e : element) : element :=
  match o with Some v => insert k v e | None => e end.

(** `take_child(name)`: removes and returns the first child element with that name.
    src/glif/read.rs L95, L122, L140. *)
Fixpoint take_child (name : str) (c : list node) : option (element * list node) :=
  match c with
  | [] => None
  | NElem e :: t =>
      if str_eqb (ename e) name then Some (e, t)
      else match take_child name t with
           | Some (x, t') => Some (x, NElem e :: t')
           | None => None
           end
  | n :: t =>
      match take_child name t with
      | Some (x, t') => Some (x, n :: t')
      | None => None
      end
  end.

(** `while let Some(e) = parent.take_child(name) { results.push(f(e)?) }`; [None] means out of
    fuel, excluded by [length c] rounds.
    src/glif/read.rs L122, L140, L168, L190, L235-237, L282. *)
Fixpoint while_take {B} (fuel : nat) (name : str) (f : element -> res B) (c : list node)
  : option (res (list B * list node)) :=
  match take_child name c with
  | None => Some (Ok ([], c))
  | Some (e, c') =>
      match f e with
      | Err x => Some (Err x)
      | Panic => Some Panic
      | Ok b =>
          match fuel with
          | O => None
          | S k =>
              match while_take k name f c' with
              | Some (Ok (bs, rest)) => Some (Ok (b :: bs, rest))
              | r => r
              end
          end
      end
  end.

(** `get_text()`: concatenation of the text and CDATA children, if there are any.
    src/glif/read.rs L227. *)
Fixpoint texts (c : list node) : list str :=
  match c with
  | [] => []
  | NText s :: t => s :: texts t
  | NCData s :: t => s :: texts t
  | _ :: t => texts t
  end.
(** src/glif/read.rs L227. *)
Definition get_text (e : element) : option str :=
  match texts (echildren e) with [] => None | l => Some (List.concat l) end.
