(** Outcomes of Rust functions and small list primitives shared by the model. *)
Require Import Coq.Lists.List Coq.NArith.NArith Coq.Strings.String.
Import ListNotations.

(** Strings: sequences of Unicode scalar values (Rust `String`/`&str` seen through `chars()`).
    Simplification: the UTF-8 encoding is not represented; where byte positions matter
    (src/string.rs) the width of each character is computed explicitly.
    Text as in the fields of src/glif.rs L42-69 and src/point.rs L18-39. *)
Definition str := list N.

(** Point types, src/point.rs L47-65. *)
Inductive ptype := Undefined | Move | Curve | QCurve | QClose | Line | OffCurve.

(** Errors: src/error.rs L25-60 ([GlifParserError]), src/error/string.rs and
    src/error/mfek.rs.  Simplification: payloads that only serve to format a message are
    kept when they are fixed texts or values, and dropped when they come from other crates. *)
Inductive err :=
| EFileIo
| EOutlineBadPointType (ci pi : nat) (t : ptype)
| EContourBadPointType (pi : nat) (t : ptype)
| EFilenameNotSet (s : str)
| EFilenameInsane (s : string)
| ECyclical (base from root : str)
| ELib
| ENotUtf8
| EXmlParse
| EPedantic (s : string)
| EXmlWrite
| EInput (s : string)
| EImageNotLoaded
| EImageNotPNG
| EImageNotDecodable
| EImageIo
| EColorNotRGBA
| ETypeConversion (ty : string) (variant : str)
| ELenOne
| ELenZero
| EIdxOutOfBounds (idx len : nat)
| ENoPrevious (n : nat)
| ENoNext (n : nat)
| EControlChar (idx : nat) (c : N)
| EStrLenZero
| EMoreContoursThanOps
| EMoreOpsThanContours
| EMoreLayersThanVecOps
| EMoreVecOpsThanLayers.

(** Outcome of a Rust call: normal return of a value ([Ok] also stands for plain returns),
    `Err`, or a panic (index out of range, `unwrap` on nothing, `unreachable!`, ...).
    Used for every `Result`/panicking function, e.g. src/glif/read.rs L74-310 (Err) and src/outline/contour.rs L30-42 (panic). *)
Inductive res (A : Type) := Ok (a : A) | Err (e : err) | Panic.
Arguments Ok {A} a.
Arguments Err {A} e.
Arguments Panic {A}.

(** The `?` operator; a panic propagates.
    As in src/glif/read.rs L83, L102, L130. *)
Definition bind {A B} (r : res A) (k : A -> res B) : res B :=
  match r with Ok a => k a | Err e => Err e | Panic => Panic end.
Notation "'let*' x ':=' e 'in' k" := (bind e (fun x => k))
  (at level 200, x pattern, e at level 100, k at level 200, right associativity).

(** `Option::ok_or`.
    As in src/glif/read.rs L83, L90, L100. *)
Definition ok_or {A} (o : option A) (e : err) : res A :=
  match o with Some a => Ok a | None => Err e end.

(** Indexing `v[i]` (panics out of range).
    As in src/outline/refigure.rs L28-38, src/outline/skia/from.rs L177-213. *)
Definition idx {A} (l : list A) (i : nat) : res A :=
  match nth_error l i with Some a => Ok a | None => Panic end.

(** Assignment `v[i] = x` for i in range (identity otherwise; callers check the range).
    As in src/outline/refigure.rs L30-38, src/outline/contour/reverse.rs L46, L61. *)
Fixpoint set_nth {A} (l : list A) (i : nat) (x : A) : list A :=
  match l, i with
  | [], _ => []
  | _ :: t, O => x :: t
  | h :: t, S j => h :: set_nth t j x
  end.

(** `iter().map(f).collect::<Result<Vec<_>,_>>()`: left to right, stops at the first failure.
    src/component.rs L289-291. *)
Fixpoint mapM {A B} (f : A -> res B) (l : list A) : res (list B) :=
  match l with
  | [] => Ok []
  | x :: t => let* y := f x in let* ys := mapM f t in Ok (y :: ys)
  end.

(** `a.last_mut().map(..)`: apply f to the last element if there is one.
    src/outline/create.rs L121, L146. *)
Fixpoint map_last {A} (f : A -> A) (l : list A) : list A :=
  match l with
  | [] => []
  | [x] => [f x]
  | x :: t => x :: map_last f t
  end.

(** `a.first_mut().map(..)`.
    src/outline/create.rs L149, src/outline/conv/penops.rs L265. *)
Definition map_first {A} (f : A -> A) (l : list A) : list A :=
  match l with [] => [] | x :: t => f x :: t end.

(** `rotate_right(1)` on a non-empty sequence: the last element moves to the front.
    src/outline/conv.rs L62, L69. *)
Definition rotate_right1 {A} (l : list A) : list A :=
  match rev l with [] => [] | x :: r => x :: rev r end.

(** Derived `PartialEq` of PointType, src/point.rs L47-63. *)
Definition ptype_eqb (a b : ptype) : bool :=
  match a, b with
  | Undefined, Undefined | Move, Move | Curve, Curve | QCurve, QCurve
  | QClose, QClose | Line, Line | OffCurve, OffCurve => true
  | _, _ => false
  end.
