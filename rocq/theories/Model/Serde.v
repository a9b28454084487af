(** Saving and loading through serde (feature `glifserde`): what `#[derive(Serialize, Deserialize)]`
    and the `serde(..)` attributes of the crate do, for serde_json's `Value` (`to_value`,
    `from_value`), the in-memory form of a JSON document.
    The derive macros and serde_json are external crates, modelled after their documentation:
    a struct is an object with one entry per field; an enum is externally tagged; `None` is null
    and `Some(x)` is what x is; a float that is not finite is null.
    The text of a JSON document is not modelled. *)
Require Import Coq.Strings.String Coq.Lists.List Coq.NArith.NArith Coq.ZArith.ZArith Coq.Arith.Arith Coq.Bool.Bool.
Require Import Verif.Model.Base Verif.Model.Text Verif.Model.Float Verif.Model.Num Verif.Model.Point
  Verif.Model.Contour Verif.Model.Names Verif.Model.Color Verif.Model.Xml Verif.Model.Parts Verif.Model.Component
  Verif.Model.Mpoint Verif.Model.Mfek.
Import ListNotations.
Local Open Scope string_scope.

(** serde_json::Value.  What the derives of src/glif.rs L40 and src/glif/mfek/mod.rs L33 produce.
    Simplification: an object is a list of entries; of two entries with one key only the first
    counts (`Value` has no two such entries). *)
Inductive json :=
| JNull | JBool (b : bool) | JInt (z : Z) | JFloat (d : f64) | JStr (s : str)
| JArr (l : list json) | JObj (l : list (str * json)).

(** How deep a document is, to bound the recursion of the readers below
    (a document is as deep as the histories and patterns in it: src/glif/mfek/mod.rs L125-133,
    src/glif/mfek/contour_operations/pap.rs L54-55). *)
Fixpoint jdepth (j : json) : nat :=
  match j with
  | JArr l => S (fold_right Nat.max 0 (map jdepth l))
  | JObj l => S (fold_right Nat.max 0 (map (fun e => jdepth (snd e)) l))
  | _ => 0
  end.

(** A call that gives a value or a serde error ([None]); derived code does not panic.
    src/glif.rs L40. *)
Definition obind {A B} (o : option A) (k : A -> option B) : option B :=
  match o with Some a => k a | None => None end.
Notation "'let?' x ':=' e 'in' k" := (obind e (fun x => k))
  (at level 200, x pattern, e at level 100, k at level 200, right associativity).

(** Types of other crates: point data (src/point.rs L133-134: `PointData: Default + Serialize`),
    IntegerOrFloat, plist::Dictionary (feature `glifserde`, Cargo.toml L39). *)
Record serdelib {PD PL : Type} := mkSerde {
  pd_en : PD -> option json; pd_de : json -> option PD; pd_default : PD;
  iof_en : iof -> json; iof_de : json -> option iof;
  pl_en : PL -> option json; pl_de : json -> option PL
}.
Arguments serdelib : clear implicits.
Arguments mkSerde {PD PL}.

(** * Writers for the parts of a derived `Serialize` *)

(** A struct, from its field names and written values.  As for src/point.rs L141-157. *)
Fixpoint fields (l : list (string * option json)) : option (list (str * json)) :=
  match l with
  | [] => Some []
  | (n, v) :: t => let? j := v in let? r := fields t in Some ((lit n, j) :: r)
  end.
(** As for src/point.rs L141-157. *)
Definition jstruct (l : list (string * option json)) : option json :=
  let? r := fields l in Some (JObj r).

(** A vector.  As for src/glif.rs L44. *)
Definition elements {A} (en : A -> option json) : list A -> option (list json) :=
  fix elements (l : list A) : option (list json) :=
  match l with
  | [] => Some []
  | x :: t => let? j := en x in let? r := elements t in Some (j :: r)
  end.
(** As for src/glif.rs L44. *)
Definition en_vec {A} (en : A -> option json) (l : list A) : option json :=
  let? r := elements en l in Some (JArr r).
(** `Option<T>`.  As for src/glif.rs L43. *)
Definition en_opt {A} (en : A -> option json) (o : option A) : option json :=
  match o with Some x => en x | None => Some JNull end.
(** A variant without data, src/point.rs L70. *)
Definition junit (n : string) : option json := Some (JStr (lit n)).
(** A variant with one value, src/glif/lib.rs L10. *)
Definition jnewtype (n : string) (v : option json) : option json :=
  let? j := v in Some (JObj [(lit n, j)]).
(** A tuple, src/glif/mfek/layer.rs L22. *)
Definition jtuple (l : list (option json)) : option json := en_vec (fun x => x) l.

(** serde_json writes a float that is not finite as null; f32 as the f64 of the same value.
    As for src/point.rs L144. *)
Definition en_f32 (x : f32) : option json :=
  Some (if is_finite x then JFloat (f64_of_f32 x) else JNull).
(** As for src/glif/mfek/contour_operations/vws.rs L81. *)
Definition en_f64 (x : f64) : option json := Some (if is_finite x then JFloat x else JNull).
(** As for src/point.rs L154. *)
Definition en_bool (b : bool) : option json := Some (JBool b).
(** `String`, src/glif.rs L63. *)
Definition en_str (s : str) : option json := Some (JStr s).
(** u64, usize, u8; src/glif.rs L60. *)
Definition en_nat (n : N) : option json := Some (JInt (Z.of_N n)).
(** `char`, src/glif.rs L61. *)
Definition en_char (c : N) : option json := Some (JStr [c]).

(** * Readers for the parts of a derived `Deserialize` *)

(** The fields of a struct come from an object by name or from an array by place; an array may not
    be longer than there are fields ([n]).  As for src/point.rs L141-157. *)
Inductive source := ByName (l : list (str * json)) | ByPlace (l : list json).
(** As for src/point.rs L141-157. *)
Definition source_of (n : nat) (j : json) : option source :=
  match j with
  | JObj l => Some (ByName l)
  | JArr l => if Nat.leb (List.length l) n then Some (ByPlace l) else None
  | _ => None
  end.
(** As for src/point.rs L141-157. *)
Fixpoint lookup (n : str) (l : list (str * json)) : option json :=
  match l with
  | [] => None
  | (k, v) :: t => if str_eqb k n then Some v else lookup n t
  end.
(** As for src/point.rs L141-157. *)
Definition field (s : source) (i : nat) (n : string) : option json :=
  match s with ByName l => lookup (lit n) l | ByPlace l => nth_error l i end.
(** A field that must be there, src/point.rs L144. *)
Definition req {A} (s : source) (i : nat) (n : string) (de : json -> option A) : option A :=
  let? j := field s i n in de j.
(** `Option<T>` read: null is `None`.  As for src/glif.rs L43. *)
Definition de_opt {A} (de : json -> option A) (j : json) : option (option A) :=
  match j with JNull => Some None | _ => let? x := de j in Some (Some x) end.
(** A field of type `Option<T>` without `serde(default)`: left out of an object it is `None`, left
    out of an array it is an error.  As for src/glif.rs L43. *)
Definition opt {A} (s : source) (i : nat) (n : string) (de : json -> option A) : option (option A) :=
  match field s i n with
  | Some j => de_opt de j
  | None => match s with ByName _ => Some None | ByPlace _ => None end
  end.
(** A field with `serde(default)`, src/point.rs L146-147. *)
Definition dflt {A} (s : source) (i : nat) (n : string) (de : json -> option A) (d : A) : option A :=
  match field s i n with Some j => de j | None => Some d end.

(** As for src/glif.rs L44. *)
Fixpoint all_of {A} (de : json -> option A) (l : list json) : option (list A) :=
  match l with
  | [] => Some []
  | j :: t => let? x := de j in let? r := all_of de t in Some (x :: r)
  end.
(** A vector, src/glif.rs L44. *)
Definition de_vec {A} (de : json -> option A) (j : json) : option (list A) :=
  match j with JArr l => all_of de l | _ => None end.
(** A hash set: elements already there are not added again.  src/component.rs L48. *)
Definition set_add {A} (eqb : A -> A -> bool) (l : list A) (x : A) : list A :=
  if existsb (eqb x) l then l else l ++ [x].
(** src/component.rs L48, src/glif/mfek/mod.rs L131. *)
Definition de_set {A} (eqb : A -> A -> bool) (de : json -> option A) (j : json) : option (list A) :=
  let? l := de_vec de j in Some (fold_left (set_add eqb) l []).

(** The tag of an enum and what it carries.  As for src/point.rs L68-71. *)
Definition variant (j : json) : option (str * option json) :=
  match j with
  | JStr s => Some (s, None)
  | JObj [(s, v)] => Some (s, Some v)
  | _ => None
  end.
(** A variant that carries nothing: also read with null.  As for src/point.rs L70. *)
Definition is_unit (v : option json) : bool :=
  match v with None | Some JNull => true | _ => false end.
(** An enum all of whose variants carry nothing, from the names of its variants.
    As for src/point.rs L49-63. *)
Fixpoint named {A} (table : list (string * A)) (s : str) : option A :=
  match table with
  | [] => None
  | (n, a) :: t => if str_eqb (lit n) s then Some a else named t s
  end.
(** As for src/point.rs L49-63. *)
Definition de_units {A} (table : list (string * A)) (j : json) : option A :=
  let? (s, v) := variant j in
  let? a := named table s in
  if is_unit v then Some a else None.

(** As for src/point.rs L144; integers are read as floats too. *)
Definition de_f32 (j : json) : option f32 :=
  match j with JFloat d => Some (f32_of_f64 d) | JInt z => Some (f32_of_Z z) | _ => None end.
(** As for src/glif/mfek/contour_operations/vws.rs L81. *)
Definition de_f64 (j : json) : option f64 :=
  match j with JFloat d => Some d | JInt z => Some (f64_of_Z z) | _ => None end.
(** As for src/point.rs L154. *)
Definition de_bool (j : json) : option bool := match j with JBool b => Some b | _ => None end.
(** As for src/glif.rs L63. *)
Definition de_str (j : json) : option str := match j with JStr s => Some s | _ => None end.
(** Unsigned integers with a bound: u64 and usize (src/glif.rs L60, src/glif/mfek/mod.rs L127),
    u8 (src/glif/mfek/contour_operations/dash.rs L17-18). *)
Definition de_nat (bound : Z) (j : json) : option N :=
  match j with JInt z => if ((0 <=? z) && (z <? bound))%Z then Some (Z.to_N z) else None | _ => None end.
(** The bound of u64 and usize (64-bit), src/glif.rs L60. *)
Definition u64_bound : Z := 18446744073709551616%Z.
(** `char`: a text of one character, src/glif.rs L61. *)
Definition de_char (j : json) : option N := match j with JStr [c] => Some c | _ => None end.

(** * Strings: src/string/serde_impl.rs *)

(** L3-5; GlifString and GlifStringLenOne, src/string.rs L14-20. *)
Definition en_glif_string (s : str) : option json := en_str s.
(** L7-9: the text is not checked. *)
Definition de_glif_string (j : json) : option str := de_str j.

(** * Paths: `PathBuf`, src/component.rs L29, src/image.rs L88 *)

(** The components put together; writing a path that is not Unicode is an error, which only
    image names can show in this model.  src/component.rs L29. *)
Definition path_text (p : path) : str :=
  let join := fix join (l : list str) : str :=
    match l with [] => [] | [c] => c | c :: t => (c ++ 47%N :: join t)%list end in
  match p with
  | c :: t => if str_eqb c (lit "/") then 47%N :: join t else join p
  | [] => []
  end.
(** src/component.rs L29. *)
Definition en_path (p : path) : option json := Some (JStr (path_text p)).
(** src/component.rs L29. *)
Definition de_path (j : json) : option path := let? s := de_str j in Some (path_of s).
(** src/image.rs L88. *)
Definition en_osstr (o : osstr) : option json :=
  match o with Utf8 s => Some (JStr s) | NotUtf8 _ => None end.
(** src/image.rs L88. *)
Definition de_osstr (j : json) : option osstr := let? s := de_str j in Some (Utf8 s).

(** * Enumerations *)

(** src/point.rs L47-63 *)
Definition ptype_tag (t : ptype) : string :=
  match t with
  | Undefined => "Undefined" | Move => "Move" | Curve => "Curve" | QCurve => "QCurve"
  | QClose => "QClose" | Line => "Line" | OffCurve => "OffCurve"
  end.
(** src/point.rs L47-63 *)
Definition en_ptype (t : ptype) : option json := junit (ptype_tag t).
(** src/point.rs L47-63 *)
Definition de_ptype : json -> option ptype :=
  de_units [("Undefined", Undefined); ("Move", Move); ("Curve", Curve); ("QCurve", QCurve);
            ("QClose", QClose); ("Line", Line); ("OffCurve", OffCurve)].
(** src/point.rs L161-169 *)
Definition en_which (w : which) : option json :=
  junit (match w with Neither => "Neither" | WA => "A" | WB => "B" end).
(** src/point.rs L161-169 *)
Definition de_which : json -> option which := de_units [("Neither", Neither); ("A", WA); ("B", WB)].
(** src/anchor.rs L16-23 *)
Definition en_anchor_type (t : anchor_type) : option json :=
  junit (match t with AMark => "Mark" | ABase => "Base" end).
(** src/anchor.rs L16-23 *)
Definition de_anchor_type : json -> option anchor_type := de_units [("Mark", AMark); ("Base", ABase)].
(** src/glif/mfek/contour_operations/vws.rs L87-93 *)
Definition en_join (t : join_type) : option json :=
  junit (match t with JBevel => "Bevel" | JMiter => "Miter" | JCircle => "Circle" | JRound => "Round" end).
(** src/glif/mfek/contour_operations/vws.rs L87-93 *)
Definition de_join : json -> option join_type :=
  de_units [("Bevel", JBevel); ("Miter", JMiter); ("Circle", JCircle); ("Round", JRound)].
(** src/glif/mfek/contour_operations/vws.rs L119-125 *)
Definition en_cap (t : cap_type) : option json :=
  junit (match t with CapCustom => "Custom" | CapSquare => "Square" | CapCircle => "Circle" | CapRound => "Round" end).
(** src/glif/mfek/contour_operations/vws.rs L119-125 *)
Definition de_cap : json -> option cap_type :=
  de_units [("Custom", CapCustom); ("Square", CapSquare); ("Circle", CapCircle); ("Round", CapRound)].
(** src/glif/mfek/contour_operations/vws.rs L157-161 *)
Definition en_interpolation (t : interpolation) : option json :=
  junit (match t with INull => "Null" | ILinear => "Linear" end).
(** src/glif/mfek/contour_operations/vws.rs L157-161 *)
Definition de_interpolation : json -> option interpolation := de_units [("Null", INull); ("Linear", ILinear)].
(** src/glif/mfek/contour_operations/pap.rs L8-12 *)
Definition en_copies (t : pattern_copies) : option json :=
  junit (match t with PSingle => "Single" | PRepeated => "Repeated" end).
(** src/glif/mfek/contour_operations/pap.rs L8-12 *)
Definition de_copies : json -> option pattern_copies := de_units [("Single", PSingle); ("Repeated", PRepeated)].
(** src/glif/mfek/contour_operations/pap.rs L44-51 *)
Definition en_stretch (t : pattern_stretch) : option json :=
  junit (match t with StretchOff => "Off" | StretchOn => "On" | StretchSpacing => "Spacing" end).
(** src/glif/mfek/contour_operations/pap.rs L44-51 *)
Definition de_stretch : json -> option pattern_stretch :=
  de_units [("Off", StretchOff); ("On", StretchOn); ("Spacing", StretchSpacing)].
(** src/glif/mfek/mod.rs L176-182 *)
Definition en_layer_operation (t : layer_operation) : option json :=
  junit (match t with LDifference => "Difference" | LUnion => "Union" | LXOR => "XOR" | LIntersect => "Intersect" end).
(** src/glif/mfek/mod.rs L176-182 *)
Definition de_layer_operation : json -> option layer_operation :=
  de_units [("Difference", LDifference); ("Union", LUnion); ("XOR", LXOR); ("Intersect", LIntersect)].
(** src/glif/mfek/point/hyper.rs L141-146 *)
Definition en_hyper_kind (t : hyper_kind) : option json :=
  junit (match t with HCurve => "Curve" | HLine => "Line" end).
(** src/glif/mfek/point/hyper.rs L141-146 *)
Definition de_hyper_kind : json -> option hyper_kind := de_units [("Curve", HCurve); ("Line", HLine)].

(** * Points *)

(** src/point.rs L66-71 *)
Definition en_handle (h : handle) : option json :=
  match h with
  | At x y => jnewtype "At" (jtuple [en_f32 x; en_f32 y])
  | Colocated => junit "Colocated"
  end.
(** src/point.rs L66-71 *)
Definition de_handle (j : json) : option handle :=
  let? (s, v) := variant j in
  if str_eqb s (lit "At") then
    match v with
    | Some (JArr [x; y]) => let? x := de_f32 x in let? y := de_f32 y in Some (At x y)
    | _ => None
    end
  else if str_eqb s (lit "Colocated") then (if is_unit v then Some Colocated else None)
  else None.

Section Serde.
Context {PD PL : Type} (S : serdelib PD PL).

(** src/point.rs L18-26 *)
Definition en_glifpoint (p : glifpoint) : option json :=
  jstruct [("x", Some (iof_en S (gx p))); ("y", Some (iof_en S (gy p))); ("smooth", en_bool (gsmooth p));
           ("name", en_opt en_str (gname p)); ("ptype", en_ptype (gptype p))].
(** src/point.rs L18-26 *)
Definition de_glifpoint (j : json) : option glifpoint :=
  let? s := source_of 5 j in
  let? x := req s 0 "x" (iof_de S) in let? y := req s 1 "y" (iof_de S) in
  let? b := req s 2 "smooth" de_bool in let? n := opt s 3 "name" de_str in
  let? t := req s 4 "ptype" de_ptype in
  Some (mkGP x y b n t).

(** src/point.rs L140-157 *)
Definition en_point (p : point PD) : option json :=
  jstruct [("x", en_f32 (px p)); ("y", en_f32 (py p)); ("a", en_handle (pa p)); ("b", en_handle (pb p));
           ("name", en_opt en_str (pname p)); ("ptype", en_ptype (pptype p)); ("smooth", en_bool (psmooth p));
           ("data", en_opt (pd_en S) (pdata p))].
(** src/point.rs L140-157 *)
Definition de_point (j : json) : option (point PD) :=
  let? s := source_of 8 j in
  let? x := req s 0 "x" de_f32 in let? y := req s 1 "y" de_f32 in
  let? a := dflt s 2 "a" de_handle Colocated in let? b := dflt s 3 "b" de_handle Colocated in
  let? n := dflt s 4 "name" (de_opt de_str) None in let? t := req s 5 "ptype" de_ptype in
  let? sm := dflt s 6 "smooth" de_bool false in let? d := dflt s 7 "data" (de_opt (pd_de S)) None in
  Some (mkPoint x y a b n t sm d).

(** src/glif/mfek/point/quad.rs L9-23 *)
Definition en_qpoint (p : qpoint PD) : option json :=
  jstruct [("x", en_f32 (q_x p)); ("y", en_f32 (q_y p)); ("a", en_handle (q_a p));
           ("name", en_opt en_str (q_name p)); ("ptype", en_ptype (q_ptype p)); ("smooth", en_bool (q_smooth p));
           ("data", en_opt (pd_en S) (q_data p))].
(** src/glif/mfek/point/quad.rs L9-23 *)
Definition de_qpoint (j : json) : option (qpoint PD) :=
  let? s := source_of 7 j in
  let? x := req s 0 "x" de_f32 in let? y := req s 1 "y" de_f32 in
  let? a := dflt s 2 "a" de_handle Colocated in
  let? n := dflt s 3 "name" (de_opt de_str) None in let? t := req s 4 "ptype" de_ptype in
  let? sm := dflt s 5 "smooth" de_bool false in let? d := dflt s 6 "data" (de_opt (pd_de S)) None in
  Some (mkQ x y a n t sm d).

(** src/glif/mfek/point/hyper.rs L9-22 *)
Definition en_hpoint (p : hpoint PD) : option json :=
  jstruct [("x", en_f32 (h_x p)); ("y", en_f32 (h_y p)); ("a", en_handle (h_a p)); ("b", en_handle (h_b p));
           ("kind", en_hyper_kind (h_kind p)); ("smooth", en_bool (h_smooth p));
           ("data", en_opt (pd_en S) (h_data p))].
(** src/glif/mfek/point/hyper.rs L9-22 *)
Definition de_hpoint (j : json) : option (hpoint PD) :=
  let? s := source_of 7 j in
  let? x := req s 0 "x" de_f32 in let? y := req s 1 "y" de_f32 in
  let? a := req s 2 "a" de_handle in let? b := req s 3 "b" de_handle in
  let? k := req s 4 "kind" de_hyper_kind in
  let? sm := req s 5 "smooth" de_bool in let? d := opt s 6 "data" (pd_de S) in
  Some (mkH x y a b k sm d).

(** * Parts of a glyph *)

(** src/color.rs L8-15 *)
Definition en_color (c : color) : option json :=
  jstruct [("r", Some (iof_en S (cr c))); ("g", Some (iof_en S (cg c)));
           ("b", Some (iof_en S (cb c))); ("a", Some (iof_en S (ca c)))].
(** src/color.rs L8-15 *)
Definition de_color (j : json) : option color :=
  let? s := source_of 4 j in
  let? r := req s 0 "r" (iof_de S) in let? g := req s 1 "g" (iof_de S) in
  let? b := req s 2 "b" (iof_de S) in let? a := req s 3 "a" (iof_de S) in
  Some (mkColor r g b a).

(** src/anchor.rs L45-56 *)
Definition en_anchor (a : anchor PD) : option json :=
  jstruct [("x", en_f32 (an_x a)); ("y", en_f32 (an_y a)); ("class", en_opt en_str (an_class a));
           ("data", pd_en S (an_data a)); ("atype", en_anchor_type (an_type a))].
(** src/anchor.rs L45-56 *)
Definition de_anchor (j : json) : option (anchor PD) :=
  let? s := source_of 5 j in
  let? x := req s 0 "x" de_f32 in let? y := req s 1 "y" de_f32 in
  let? c := dflt s 2 "class" (de_opt de_str) None in
  let? d := dflt s 3 "data" (pd_de S) (pd_default S) in
  let? t := dflt s 4 "atype" de_anchor_type ABase in
  Some (mkAnchor x y c d t).

(** src/anchor.rs L72-78 *)
Definition en_glifanchor (a : glifanchor) : option json :=
  jstruct [("x", Some (iof_en S (ga_x a))); ("y", Some (iof_en S (ga_y a)));
           ("class", en_opt en_glif_string (ga_class a))].
(** src/anchor.rs L72-78 *)
Definition de_glifanchor (j : json) : option glifanchor :=
  let? s := source_of 3 j in
  let? x := req s 0 "x" (iof_de S) in let? y := req s 1 "y" (iof_de S) in
  let? c := opt s 2 "class" de_glif_string in
  Some (mkGA x y c).

(** src/guideline.rs L15-37 *)
Definition en_guideline (g : guideline PD) : option json :=
  jstruct [("at", jstruct [("x", en_f32 (gl_x g)); ("y", en_f32 (gl_y g))]);
           ("angle", Some (iof_en S (gl_angle g))); ("name", en_opt en_str (gl_name g));
           ("color", en_opt en_color (gl_color g)); ("identifier", en_opt en_str (gl_identifier g));
           ("data", pd_en S (gl_data g))].
(** src/guideline.rs L15-20 *)
Definition de_guideline_point (j : json) : option (f32 * f32) :=
  let? s := source_of 2 j in
  let? x := req s 0 "x" de_f32 in let? y := req s 1 "y" de_f32 in Some (x, y).
(** src/guideline.rs L28-37 *)
Definition de_guideline (j : json) : option (guideline PD) :=
  let? s := source_of 6 j in
  let? (x, y) := req s 0 "at" de_guideline_point in
  let? a := req s 1 "angle" (iof_de S) in let? n := opt s 2 "name" de_str in
  let? c := opt s 3 "color" de_color in let? i := opt s 4 "identifier" de_str in
  let? d := req s 5 "data" (pd_de S) in
  Some (mkGuideline x y a n c i d).

(** src/component.rs L24-37 *)
Definition en_glifcomponent (c : glifcomponent) : option json :=
  let m := c_matrix c in
  jstruct [("base", en_str (c_base c)); ("filename", en_opt en_path (c_filename c));
           ("xScale", Some (iof_en S (m_xScale m))); ("xyScale", Some (iof_en S (m_xyScale m)));
           ("yxScale", Some (iof_en S (m_yxScale m))); ("yScale", Some (iof_en S (m_yScale m)));
           ("xOffset", Some (iof_en S (m_xOffset m))); ("yOffset", Some (iof_en S (m_yOffset m)));
           ("identifier", en_opt en_str (c_identifier c))].
(** src/component.rs L24-37 *)
Definition de_glifcomponent (j : json) : option glifcomponent :=
  let? s := source_of 9 j in
  let? b := req s 0 "base" de_str in let? f := opt s 1 "filename" de_path in
  let? m0 := req s 2 "xScale" (iof_de S) in let? m1 := req s 3 "xyScale" (iof_de S) in
  let? m2 := req s 4 "yxScale" (iof_de S) in let? m3 := req s 5 "yScale" (iof_de S) in
  let? m4 := req s 6 "xOffset" (iof_de S) in let? m5 := req s 7 "yOffset" (iof_de S) in
  let? i := opt s 8 "identifier" de_str in
  Some (mkComponent b f (mkMatrix m0 m1 m2 m3 m4 m5) i).

(** An outline as files have it, src/outline.rs L30-35. *)
Record glifoutline := mkGO { go_contours : list (list glifpoint); go_components : list glifcomponent }.
(** src/outline.rs L30-35 *)
Definition en_glifoutline (o : glifoutline) : option json :=
  jstruct [("contours", en_vec (en_vec en_glifpoint) (go_contours o));
           ("components", en_vec en_glifcomponent (go_components o))].
(** src/outline.rs L30-35 *)
Definition de_glifoutline (j : json) : option glifoutline :=
  let? s := source_of 2 j in
  let? c := req s 0 "contours" (de_vec (de_vec de_glifpoint)) in
  let? k := req s 1 "components" (de_vec de_glifcomponent) in
  Some (mkGO c k).

(** src/component.rs L39-49.  A hash set is written in the order of the list that stands for it,
    which may be any order of its elements. *)
Definition en_glifcomponents (c : glifcomponents) : option json :=
  jstruct [("root", en_str (cs_root c)); ("vec", en_vec en_glifcomponent (cs_vec c));
           ("uniques", en_vec en_str (cs_uniques c))].
(** src/component.rs L39-49 *)
Definition de_glifcomponents (j : json) : option glifcomponents :=
  let? s := source_of 3 j in
  let? r := req s 0 "root" de_str in let? v := req s 1 "vec" (de_vec de_glifcomponent) in
  let? u := req s 2 "uniques" (de_set str_eqb de_str) in
  Some (mkComponents r v u).

(** src/component.rs L93-101 *)
Definition en_rect (r : comp_rect) : option json :=
  jstruct [("minx", en_f32 (r_minx r)); ("miny", en_f32 (r_miny r)); ("maxx", en_f32 (r_maxx r));
           ("maxy", en_f32 (r_maxy r)); ("name", en_str (r_name r))].
(** src/component.rs L93-101 *)
Definition de_rect (j : json) : option comp_rect :=
  let? s := source_of 5 j in
  let? x := req s 0 "minx" de_f32 in let? y := req s 1 "miny" de_f32 in
  let? X := req s 2 "maxx" de_f32 in let? Y := req s 3 "maxy" de_f32 in
  let? n := req s 4 "name" de_str in
  Some (mkRect x y X Y n).

(** src/image.rs L85-97 *)
Definition en_glifimage (i : glifimage) : option json :=
  let m := i_matrix i in
  jstruct [("filename", en_osstr (i_filename i));
           ("xScale", Some (iof_en S (m_xScale m))); ("xyScale", Some (iof_en S (m_xyScale m)));
           ("yxScale", Some (iof_en S (m_yxScale m))); ("yScale", Some (iof_en S (m_yScale m)));
           ("xOffset", Some (iof_en S (m_xOffset m))); ("yOffset", Some (iof_en S (m_yOffset m)));
           ("identifier", en_opt en_str (i_identifier i)); ("color", en_opt en_color (i_color i))].
(** src/image.rs L85-97 *)
Definition de_glifimage (j : json) : option glifimage :=
  let? s := source_of 9 j in
  let? f := req s 0 "filename" de_osstr in
  let? m0 := req s 1 "xScale" (iof_de S) in let? m1 := req s 2 "xyScale" (iof_de S) in
  let? m2 := req s 3 "yxScale" (iof_de S) in let? m3 := req s 4 "yScale" (iof_de S) in
  let? m4 := req s 5 "xOffset" (iof_de S) in let? m5 := req s 6 "yOffset" (iof_de S) in
  let? i := opt s 7 "identifier" de_str in let? c := opt s 8 "color" de_color in
  Some (mkImage f (mkMatrix m0 m1 m2 m3 m4 m5) i c).

(** kurbo::Affine (external): its six coefficients.  src/component.rs L84,
    src/glif/mfek/layer.rs L22. *)
Definition en_affine (m : affine) : option json :=
  jtuple [en_f64 (c0 m); en_f64 (c1 m); en_f64 (c2 m); en_f64 (c3 m); en_f64 (c4 m); en_f64 (c5 m)].
(** src/component.rs L84, src/glif/mfek/layer.rs L22 *)
Definition de_affine (j : json) : option affine :=
  match j with
  | JArr [a; b; c; d; e; f] =>
      let? a := de_f64 a in let? b := de_f64 b in let? c := de_f64 c in
      let? d := de_f64 d in let? e := de_f64 e in let? f := de_f64 f in
      Some (mkAffine a b c d e f)
  | _ => None
  end.

(** src/glif/lib.rs L6-16: the third variant can be neither written nor read. *)
Definition en_lib (l : lib PL) : option json :=
  match l with
  | LNone => junit "None"
  | LPlist d => jnewtype "Plist" (pl_en S d)
  | LXml _ => None
  end.
(** src/glif/lib.rs L6-16 *)
Definition de_lib (j : json) : option (lib PL) :=
  let? (s, v) := variant j in
  if str_eqb s (lit "None") then (if is_unit v then Some LNone else None)
  else if str_eqb s (lit "Plist") then (let? v := v in let? d := pl_de S v in Some (LPlist d))
  else None.

(** src/glif.rs L40-69 (with feature `glifimage`, which is on by default).  The file name is
    skipped both ways. *)
Definition en_glif (g : glif PD PL) : option json :=
  jstruct [("outline", en_opt (en_vec (en_vec en_point)) (g_outline g));
           ("anchors", en_vec en_anchor (g_anchors g)); ("components", en_glifcomponents (g_components g));
           ("guidelines", en_vec en_guideline (g_guidelines g)); ("images", en_vec en_glifimage (g_images g));
           ("width", en_opt en_nat (g_width g)); ("unicode", en_vec en_char (g_unicode g));
           ("name", en_str (g_name g)); ("note", en_opt en_str (g_note g)); ("lib", en_lib (g_lib g))].
(** src/glif.rs L40-69 *)
Definition de_glif (j : json) : option (glif PD PL) :=
  let? s := source_of 10 j in
  let? o := opt s 0 "outline" (de_vec (de_vec de_point)) in
  let? a := req s 1 "anchors" (de_vec de_anchor) in
  let? c := req s 2 "components" de_glifcomponents in
  let? gl := req s 3 "guidelines" (de_vec de_guideline) in
  let? im := req s 4 "images" (de_vec de_glifimage) in
  let? w := opt s 5 "width" (de_nat u64_bound) in
  let? u := req s 6 "unicode" (de_vec de_char) in
  let? n := req s 7 "name" de_str in
  let? nt := opt s 8 "note" de_str in
  let? l := req s 9 "lib" de_lib in
  Some (mkGlif o a c gl im w u n nt None l).

(** src/component.rs L80-85 *)
Definition en_component (c : component PD PL) : option json :=
  jstruct [("glif", en_glif (cp_glif c)); ("matrix", en_affine (cp_matrix c))].
(** src/component.rs L80-85 *)
Definition de_component (j : json) : option (component PD PL) :=
  let? s := source_of 2 j in
  let? g := req s 0 "glif" de_glif in let? m := req s 1 "matrix" de_affine in
  Some (mkComp g m).

(** * Contour operations *)

(** src/glif/mfek/contour_operations/vws.rs L79-85 *)
Definition en_vws_handle (h : vws_handle) : option json :=
  jstruct [("left_offset", en_f64 (vh_left h)); ("right_offset", en_f64 (vh_right h));
           ("tangent_offset", en_f64 (vh_tangent h)); ("interpolation", en_interpolation (vh_interpolation h))].
(** src/glif/mfek/contour_operations/vws.rs L79-85 *)
Definition de_vws_handle (j : json) : option vws_handle :=
  let? s := source_of 4 j in
  let? l := req s 0 "left_offset" de_f64 in let? r := req s 1 "right_offset" de_f64 in
  let? t := req s 2 "tangent_offset" de_f64 in let? i := req s 3 "interpolation" de_interpolation in
  Some (mkVH l r t i).
(** src/glif/mfek/contour_operations/vws.rs L8-16 *)
Definition en_vws (v : vws) : option json :=
  jstruct [("handles", en_vec en_vws_handle (v_handles v)); ("join_type", en_join (v_join v));
           ("cap_start_type", en_cap (v_cap_start v)); ("cap_end_type", en_cap (v_cap_end v));
           ("remove_internal", en_bool (v_remove_internal v)); ("remove_external", en_bool (v_remove_external v))].
(** src/glif/mfek/contour_operations/vws.rs L8-16 *)
Definition de_vws (j : json) : option vws :=
  let? s := source_of 6 j in
  let? h := req s 0 "handles" (de_vec de_vws_handle) in let? jt := req s 1 "join_type" de_join in
  let? cs := req s 2 "cap_start_type" de_cap in let? ce := req s 3 "cap_end_type" de_cap in
  let? ri := req s 4 "remove_internal" de_bool in let? re := req s 5 "remove_external" de_bool in
  Some (mkVws h jt cs ce ri re).

(** src/glif/mfek/contour_operations/dash.rs L5-9 *)
Definition en_cull (c : dash_cull) : option json :=
  jstruct [("width", en_f32 (dc_width c)); ("area_cutoff", en_f32 (dc_area_cutoff c))].
(** src/glif/mfek/contour_operations/dash.rs L5-9 *)
Definition de_cull (j : json) : option dash_cull :=
  let? s := source_of 2 j in
  let? w := req s 0 "width" de_f32 in let? a := req s 1 "area_cutoff" de_f32 in Some (mkCull w a).
(** src/glif/mfek/contour_operations/dash.rs L11-19 *)
Definition en_dash (d : dash) : option json :=
  jstruct [("stroke_width", en_f32 (d_stroke_width d)); ("cull", en_opt en_cull (d_cull d));
           ("dash_desc", en_vec en_f32 (d_desc d)); ("include_last_path", en_bool (d_include_last_path d));
           ("paint_join", en_nat (d_paint_join d)); ("paint_cap", en_nat (d_paint_cap d))].
(** src/glif/mfek/contour_operations/dash.rs L11-19 *)
Definition de_dash (j : json) : option dash :=
  let? s := source_of 6 j in
  let? w := req s 0 "stroke_width" de_f32 in let? c := opt s 1 "cull" de_cull in
  let? l := req s 2 "dash_desc" (de_vec de_f32) in let? i := req s 3 "include_last_path" de_bool in
  let? pj := req s 4 "paint_join" (de_nat 256) in let? pc := req s 5 "paint_cap" (de_nat 256) in
  Some (mkDash w c l i pj pc).

(** src/glif/mfek/contour_operations/pap.rs L14-22 *)
Definition en_subdivide (p : pattern_subdivide) : option json :=
  match p with
  | SubOff => junit "Off" | SubSimple n => jnewtype "Simple" (en_nat n) | SubAngle a => jnewtype "Angle" (en_f64 a)
  end.
(** src/glif/mfek/contour_operations/pap.rs L14-22 *)
Definition de_subdivide (j : json) : option pattern_subdivide :=
  let? (s, v) := variant j in
  if str_eqb s (lit "Off") then (if is_unit v then Some SubOff else None)
  else if str_eqb s (lit "Simple") then (let? v := v in let? n := de_nat u64_bound v in Some (SubSimple n))
  else if str_eqb s (lit "Angle") then (let? v := v in let? a := de_f64 v in Some (SubAngle a))
  else None.
(** src/glif/mfek/contour_operations/pap.rs L25-33 *)
Definition en_culling (p : pattern_culling) : option json :=
  match p with
  | CullOff => junit "Off" | CullRemove => junit "RemoveOverlapping"
  | CullErase a b => jnewtype "EraseOverlapping" (jtuple [en_f64 a; en_f64 b])
  end.
(** A pair of floats, src/glif/mfek/contour_operations/pap.rs L63. *)
Definition de_pair (j : json) : option (f64 * f64) :=
  match j with JArr [a; b] => let? a := de_f64 a in let? b := de_f64 b in Some (a, b) | _ => None end.
(** src/glif/mfek/contour_operations/pap.rs L25-33 *)
Definition de_culling (j : json) : option pattern_culling :=
  let? (s, v) := variant j in
  if str_eqb s (lit "Off") then (if is_unit v then Some CullOff else None)
  else if str_eqb s (lit "RemoveOverlapping") then (if is_unit v then Some CullRemove else None)
  else if str_eqb s (lit "EraseOverlapping") then (let? v := v in let? (a, b) := de_pair v in Some (CullErase a b))
  else None.

(** src/glif/mfek/contour_operations/pap.rs L53-72; [en] writes a contour of the pattern. *)
Definition en_pap {C} (en : C -> option json) (p : pap C) : option json :=
  jstruct [("pattern", en_vec en (pp_pattern p)); ("copies", en_copies (pp_copies p));
           ("subdivide", en_subdivide (pp_subdivide p)); ("is_vertical", en_bool (pp_is_vertical p));
           ("stretch", en_stretch (pp_stretch p)); ("spacing", en_f64 (pp_spacing p));
           ("simplify", en_bool (pp_simplify p)); ("normal_offset", en_f64 (pp_normal_offset p));
           ("tangent_offset", en_f64 (pp_tangent_offset p));
           ("pattern_scale", jtuple [en_f64 (fst (pp_pattern_scale p)); en_f64 (snd (pp_pattern_scale p))]);
           ("center_pattern", en_bool (pp_center_pattern p)); ("prevent_overdraw", en_culling (pp_prevent_overdraw p));
           ("two_pass_culling", en_bool (pp_two_pass_culling p)); ("reverse_path", en_bool (pp_reverse_path p));
           ("reverse_culling", en_bool (pp_reverse_culling p)); ("warp_pattern", en_bool (pp_warp_pattern p));
           ("split_path", en_bool (pp_split_path p))].
(** src/glif/mfek/contour_operations/pap.rs L53-72 *)
Definition de_pap {C} (de : json -> option C) (j : json) : option (pap C) :=
  let? s := source_of 17 j in
  let? pt := req s 0 "pattern" (de_vec de) in let? cp := req s 1 "copies" de_copies in
  let? sb := req s 2 "subdivide" de_subdivide in let? iv := req s 3 "is_vertical" de_bool in
  let? st := req s 4 "stretch" de_stretch in let? sp := req s 5 "spacing" de_f64 in
  let? sm := req s 6 "simplify" de_bool in let? no := req s 7 "normal_offset" de_f64 in
  let? ta := req s 8 "tangent_offset" de_f64 in let? ps := req s 9 "pattern_scale" de_pair in
  let? ce := req s 10 "center_pattern" de_bool in let? po := req s 11 "prevent_overdraw" de_culling in
  let? tp := req s 12 "two_pass_culling" de_bool in let? rp := req s 13 "reverse_path" de_bool in
  let? rc := req s 14 "reverse_culling" de_bool in let? wp := req s 15 "warp_pattern" de_bool in
  let? sl := req s 16 "split_path" de_bool in
  Some (mkPap C pt cp sb iv st sp sm no ta ps ce po tp rp rc wp sl).

(** src/glif/mfek/contour_operations/mod.rs L20-26: variants with one named field. *)
Definition en_operations {C} (en : C -> option json) (o : operations C) : option json :=
  match o with
  | OpVws v => jnewtype "VariableWidthStroke" (jstruct [("data", en_vws v)])
  | OpPap p => jnewtype "PatternAlongPath" (jstruct [("data", en_pap en p)])
  | OpDash d => jnewtype "DashAlongPath" (jstruct [("data", en_dash d)])
  end.
(** The named field of such a variant: an object only.
    src/glif/mfek/contour_operations/mod.rs L23-25. *)
Definition variant_data {A} (de : json -> option A) (v : option json) : option A :=
  match v with Some (JObj l) => req (ByName l) 0 "data" de | _ => None end.
(** src/glif/mfek/contour_operations/mod.rs L20-26 *)
Definition de_operations {C} (de : json -> option C) (j : json) : option (operations C) :=
  let? (s, v) := variant j in
  if str_eqb s (lit "VariableWidthStroke") then (let? x := variant_data de_vws v in Some (OpVws x))
  else if str_eqb s (lit "PatternAlongPath") then (let? x := variant_data (de_pap de) v in Some (OpPap x))
  else if str_eqb s (lit "DashAlongPath") then (let? x := variant_data de_dash v in Some (OpDash x))
  else None.

(** src/glif/mfek/inner/mod.rs L10-15, src/glif/mfek/inner/hyper.rs L6-10 *)
Definition en_inner (i : inner PD) : option json :=
  match i with
  | Cubic l => jnewtype "Cubic" (en_vec en_point l)
  | Quad l => jnewtype "Quad" (en_vec en_qpoint l)
  | Hyper l o => jnewtype "Hyper" (jstruct [("points", en_vec en_hpoint l); ("open", en_bool o)])
  end.
(** src/glif/mfek/inner/hyper.rs L6-10 *)
Definition de_hyper_inner (j : json) : option (list (hpoint PD) * bool) :=
  let? s := source_of 2 j in
  let? l := req s 0 "points" (de_vec de_hpoint) in let? o := req s 1 "open" de_bool in Some (l, o).
(** src/glif/mfek/inner/mod.rs L10-15 *)
Definition de_inner (j : json) : option (inner PD) :=
  let? (s, v) := variant j in
  if str_eqb s (lit "Cubic") then (let? v := v in let? l := de_vec de_point v in Some (Cubic l))
  else if str_eqb s (lit "Quad") then (let? v := v in let? l := de_vec de_qpoint v in Some (Quad l))
  else if str_eqb s (lit "Hyper") then (let? v := v in let? (l, o) := de_hyper_inner v in Some (Hyper l o))
  else None.

(** src/glif/mfek/contour.rs L18-22 *)
Fixpoint en_mcontour (c : mcontour PD) : option json :=
  let 'MC i o := c in
  jstruct [("inner", en_inner i); ("operation", en_opt (en_operations en_mcontour) o)].
(** src/glif/mfek/contour.rs L18-22.  [fuel] bounds how deep patterns are nested. *)
Fixpoint de_mcontour_in (fuel : nat) (j : json) : option (mcontour PD) :=
  match fuel with
  | O => None
  | Datatypes.S f =>
      let? s := source_of 2 j in
      let? i := req s 0 "inner" de_inner in
      let? o := opt s 1 "operation" (de_operations (de_mcontour_in f)) in
      Some (MC i o)
  end.
(** No document is nested deeper than it is deep (proved in Facts/SerdeFacts.v).
    src/glif/mfek/contour.rs L18-22. *)
Definition de_mcontour (j : json) : option (mcontour PD) := de_mcontour_in (Datatypes.S (jdepth j)) j.

(** * Layers and glyphs *)

(** src/glif/mfek/layer.rs L15-23 *)
Definition en_layer (l : layer PD) : option json :=
  jstruct [("name", en_str (l_name l)); ("visible", en_bool (l_visible l)); ("color", en_opt en_color (l_color l));
           ("outline", en_vec en_mcontour (l_outline l)); ("operation", en_opt en_layer_operation (l_operation l));
           ("images", en_vec (fun im => jtuple [en_glifimage (fst im); en_affine (snd im)]) (l_images l))].
(** src/glif/mfek/layer.rs L22 *)
Definition de_placed_image (j : json) : option (glifimage * affine) :=
  match j with JArr [i; m] => let? i := de_glifimage i in let? m := de_affine m in Some (i, m) | _ => None end.
(** src/glif/mfek/layer.rs L15-23 *)
Definition de_layer (j : json) : option (layer PD) :=
  let? s := source_of 6 j in
  let? n := req s 0 "name" de_str in let? v := req s 1 "visible" de_bool in
  let? c := opt s 2 "color" de_color in let? o := req s 3 "outline" (de_vec de_mcontour) in
  let? op := opt s 4 "operation" de_layer_operation in
  let? im := req s 5 "images" (de_vec de_placed_image) in
  Some (mkLayer n v c o op im).

(** src/glif/mfek/mod.rs L33-52; [en] writes an entry of the history.  The file name is not
    written, but it is read if it is there. *)
Definition en_mglif {H} (en : H -> option json) (m : mglif PD H) : option json :=
  jstruct [("layers", en_vec en_layer (mg_layers m)); ("history", en_vec en (mg_history m));
           ("anchors", en_vec en_anchor (mg_anchors m)); ("components", en_glifcomponents (mg_components m));
           ("flattened", en_opt (en_vec (en_vec en_point)) (mg_flattened m));
           ("component_rects", en_opt (en_vec en_rect) (mg_component_rects m));
           ("guidelines", en_vec en_guideline (mg_guidelines m)); ("width", en_opt en_nat (mg_width m));
           ("unicode", en_vec en_char (mg_unicode m)); ("name", en_str (mg_name m));
           ("note", en_opt en_str (mg_note m))].
(** src/glif/mfek/mod.rs L33-52 *)
Definition de_mglif {H} (de : json -> option H) (j : json) : option (mglif PD H) :=
  let? s := source_of 12 j in
  let? l := req s 0 "layers" (de_vec de_layer) in
  let? h := req s 1 "history" (de_vec de) in
  let? a := req s 2 "anchors" (de_vec de_anchor) in
  let? c := req s 3 "components" de_glifcomponents in
  let? f := opt s 4 "flattened" (de_vec (de_vec de_point)) in
  let? r := opt s 5 "component_rects" (de_vec de_rect) in
  let? gl := req s 6 "guidelines" (de_vec de_guideline) in
  let? w := opt s 7 "width" (de_nat u64_bound) in
  let? u := req s 8 "unicode" (de_vec de_char) in
  let? n := req s 9 "name" de_str in
  let? nt := opt s 10 "note" de_str in
  let? fn := opt s 11 "filename" de_path in
  Some (mkMG H l h a c f r gl w u n nt fn).

End Serde.

(** An entry of the history holds a glyph with its own history.  src/glif/mfek/mod.rs L124-133. *)
Inductive history {PD : Type} :=
| HEntry (description : str) (layer_idx contour_idx point_idx : option N) (guidelines : list (guideline PD))
         (selected : option (list (N * N))) (glyph : mglif PD history).
Arguments history : clear implicits.

Section History.
Context {PD PL : Type} (S : serdelib PD PL).

(** (usize, usize), src/glif/mfek/mod.rs L131 *)
Definition en_selected (s : N * N) : option json := jtuple [en_nat (fst s); en_nat (snd s)].
(** src/glif/mfek/mod.rs L131 *)
Definition de_selected (j : json) : option (N * N) :=
  match j with
  | JArr [a; b] => let? a := de_nat u64_bound a in let? b := de_nat u64_bound b in Some (a, b)
  | _ => None
  end.
(** Equality of pairs, src/glif/mfek/mod.rs L131. *)
Definition pair_eqb (a b : N * N) : bool := (N.eqb (fst a) (fst b) && N.eqb (snd a) (snd b))%bool.

(** src/glif/mfek/mod.rs L124-133 *)
Fixpoint en_history (h : history PD) : option json :=
  let 'HEntry d li ci pi gl sel g := h in
  jstruct [("description", en_str d); ("layer_idx", en_opt en_nat li); ("contour_idx", en_opt en_nat ci);
           ("point_idx", en_opt en_nat pi); ("guidelines", en_vec (en_guideline S) gl);
           ("selected", en_opt (en_vec en_selected) sel); ("glyph", en_mglif S en_history g)].
(** src/glif/mfek/mod.rs L124-133.  [fuel] bounds how deep histories are nested. *)
Fixpoint de_history_in (fuel : nat) (j : json) : option (history PD) :=
  match fuel with
  | O => None
  | Datatypes.S f =>
      let? s := source_of 7 j in
      let? d := req s 0 "description" de_str in let? li := opt s 1 "layer_idx" (de_nat u64_bound) in
      let? ci := opt s 2 "contour_idx" (de_nat u64_bound) in let? pi := opt s 3 "point_idx" (de_nat u64_bound) in
      let? gl := req s 4 "guidelines" (de_vec (de_guideline S)) in
      let? sel := opt s 5 "selected" (de_set pair_eqb de_selected) in
      let? g := req s 6 "glyph" (de_mglif S (de_history_in f)) in
      Some (HEntry d li ci pi gl sel g)
  end.
(** No document is nested deeper than it is deep (proved in Facts/SerdeFacts.v).
    src/glif/mfek/mod.rs L124-133. *)
Definition de_history (j : json) : option (history PD) := de_history_in (Datatypes.S (jdepth j)) j.

(** A whole MFEK glyph, src/glif/mfek/mod.rs L33-52. *)
Definition en_mfekglif (m : mglif PD (history PD)) : option json := en_mglif S en_history m.
(** src/glif/mfek/mod.rs L33-52. *)
Definition de_mfekglif (j : json) : option (mglif PD (history PD)) := de_mglif S de_history j.

End History.

(** * The point data of MFEK: src/glif/mfek/pointdata.rs L2-11 *)

(** src/glif/mfek/pointdata.rs L3-7, and the only variant of MFEKPointData, L9-11 *)
Record mfek_data := mkMfekData { md_fixed : bool; md_format : bool; md_right : bool }.
(** src/glif/mfek/pointdata.rs L2-11 *)
Definition en_mfek_data (d : mfek_data) : option json :=
  jnewtype "Guideline" (jstruct [("fixed", en_bool (md_fixed d)); ("format", en_bool (md_format d));
                                 ("right", en_bool (md_right d))]).
(** src/glif/mfek/pointdata.rs L2-7 *)
Definition de_mfek_info (j : json) : option mfek_data :=
  let? s := source_of 3 j in
  let? a := req s 0 "fixed" de_bool in let? b := req s 1 "format" de_bool in
  let? c := req s 2 "right" de_bool in Some (mkMfekData a b c).
(** src/glif/mfek/pointdata.rs L8-11 *)
Definition de_mfek_data (j : json) : option mfek_data :=
  let? (s, v) := variant j in
  if str_eqb s (lit "Guideline") then (let? v := v in de_mfek_info v) else None.

(** The point data `()`, src/point.rs L137: written as null. *)
Definition en_unit (_ : unit) : option json := Some JNull.
(** src/point.rs L137 *)
Definition de_unit (j : json) : option unit := match j with JNull => Some tt | _ => None end.
