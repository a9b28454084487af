(** XML text, after XML 1.0 and the documentation of the crates `xmltree` and `xml` (not in /repo).
    The theorems that take the XML library as a parameter hold of any other as well; this one shows
    what becomes of the characters.  Simplifications: one text is one sequence of characters (that
    it is UTF-8 is not represented); namespaces are not interpreted; a document type
    ends at the first `>`; comments, processing instructions and document types are not looked into. *)
Require Import Coq.Lists.List Coq.Bool.Bool Coq.NArith.NArith Coq.Strings.String.
Require Import Verif.Model.Base Verif.Model.Text Verif.Model.Xml.
Import ListNotations.
Local Open Scope N_scope.

(** Characters of XML documents (production 2); what else the text read at src/glif/read.rs L75
    holds makes it unreadable. *)
Definition xml_char (c : N) : bool :=
  (c =? 9) || (c =? 10) || (c =? 13) || ((32 <=? c) && (c <=? 55295)) ||
  ((57344 <=? c) && (c <=? 65533)) || ((65536 <=? c) && (c <=? 1114111)).
(** White space (production 3), src/glif/read.rs L75. *)
Definition xml_space (c : N) : bool := (c =? 32) || (c =? 9) || (c =? 10) || (c =? 13).
(** First characters of names (production 4), src/glif/read.rs L75.  Simplified: any character
    that is not ASCII will do. *)
Definition name_start (c : N) : bool :=
  ((65 <=? c) && (c <=? 90)) || ((97 <=? c) && (c <=? 122)) || (c =? 95) || (c =? 58) || (128 <=? c).
(** Further characters of names (production 4a), src/glif/read.rs L75. *)
Definition name_char (c : N) : bool := name_start c || ((48 <=? c) && (c <=? 57)) || (c =? 45) || (c =? 46).
(** Names (production 5), src/glif/read.rs L75. *)
Definition is_name (s : str) : bool := match s with [] => false | c :: _ => name_start c && forallb name_char s end.

(** * Printing *)
(** What is written for a character of an attribute value, src/glif/write.rs L39. *)
Definition esc_attr (c : N) : str :=
  if c =? 60 then lit "&lt;" else if c =? 62 then lit "&gt;" else if c =? 34 then lit "&quot;"
  else if c =? 39 then lit "&apos;" else if c =? 38 then lit "&amp;"
  else if c =? 10 then lit "&#xA;" else if c =? 13 then lit "&#xD;" else [c].
(** What is written for a character of text, src/glif/write.rs L39. *)
Definition esc_text (c : N) : str :=
  if c =? 60 then lit "&lt;" else if c =? 62 then lit "&gt;" else if c =? 38 then lit "&amp;" else [c].
(** One attribute, src/glif/write.rs L39. *)
Definition emit_attr (kv : str * str) : str :=
  32 :: fst kv ++ 61 :: 34 :: flat_map esc_attr (snd kv) ++ [34].
(** A new line and two blanks for each level (`perform_indent(true)`), src/glif/write.rs L33. *)
Definition newline (level : nat) : str := 10 :: repeat 32 (2 * level).

(** `Element::write_with_config` (src/glif/write.rs L39) below the XML declaration: the children of
    an element of a level, which [sub] prints, [text] telling whether text was written among those
    before.  After text nothing is indented.  Simplification: of comments and the like, which the
    trees do not hold, an empty comment is written. *)
Definition emit_nodes (sub : element -> str) (level : nat) : bool -> list node -> str :=
  fix children (text : bool) (l : list node) : str :=
    match l with
    | [] => if text then [] else newline level
    | NElem e :: t => (if text then [] else newline (S level)) ++ sub e ++ children text t
    | NText s :: t => flat_map esc_text s ++ children true t
    | NCData s :: t => lit "<![CDATA[" ++ s ++ lit "]]>" ++ children true t
    | NOther :: t => (if text then [] else newline (S level)) ++ lit "<!---->" ++ children text t
    end%list.
(** An element, src/glif/write.rs L39. *)
Fixpoint emit (level : nat) (e : element) {struct e} : str :=
  let 'Element n a ch := e in
  (60 :: n ++ flat_map emit_attr a ++
   match ch with
   | [] => lit "/>"
   | _ => 62 :: emit_nodes (emit (S level)) level false ch ++ lit "</" ++ n ++ [62]
   end)%list.
(** The XML declaration of `write_document_declaration`, on by default, and the element,
    src/glif/write.rs L31-42. *)
Definition print_xml (e : element) : option str :=
  Some ((lit "<?xml version=""1.0"" encoding=""UTF-8""?>" ++ newline 0 ++ emit 0 e)%list).

(** * Parsing *)
(** The rest of the text after a beginning, src/glif/read.rs L75. *)
Fixpoint starts (p s : str) : option str :=
  match p, s with
  | [], _ => Some s
  | c :: p', d :: s' => if c =? d then starts p' s' else None
  | _, [] => None
  end.
(** The text before and after the first place where [p] stands, src/glif/read.rs L75. *)
Fixpoint cut (p s : str) : option (str * str) :=
  match starts p s with
  | Some r => Some ([], r)
  | None => match s with
            | [] => None
            | c :: t => match cut p t with Some (a, b) => Some (c :: a, b) | None => None end
            end
  end.
(** The longest beginning of characters of a kind, src/glif/read.rs L75. *)
Fixpoint span (f : N -> bool) (s : str) : str * str :=
  match s with
  | [] => ([], [])
  | c :: t => if f c then let '(a, b) := span f t in (c :: a, b) else ([], s)
  end.
(** src/glif/read.rs L75. *)
Definition skip_space (s : str) : str := snd (span xml_space s).

(** What a reference stands for (productions 66 and 68; no other entities are known),
    src/glif/read.rs L75. *)
Definition reference (s : str) : option N :=
  if str_eqb s (lit "lt") then Some 60 else if str_eqb s (lit "gt") then Some 62
  else if str_eqb s (lit "amp") then Some 38 else if str_eqb s (lit "apos") then Some 39
  else if str_eqb s (lit "quot") then Some 34
  else match (match s with
              | 35 :: 120 :: t => match t with [] => None | _ => digits_val 16 t 0 end
              | 35 :: t => match t with [] => None | _ => digits_val 10 t 0 end
              | _ => None
              end) with
       | Some c => if xml_char c then Some c else None
       | None => None
       end.
(** Text with its references replaced; [inside] holds, backwards, the reference under way.
    src/glif/read.rs L75. *)
Fixpoint unescape (inside : option str) (s : str) : option str :=
  match s with
  | [] => match inside with None => Some [] | Some _ => None end
  | c :: t =>
      match inside with
      | None => if c =? 38 then unescape (Some []) t
                else match unescape None t with Some r => Some (c :: r) | None => None end
      | Some r => if c =? 59 then
                    match reference (rev r), unescape None t with Some x, Some r => Some (x :: r) | _, _ => None end
                  else unescape (Some (c :: r)) t
      end
  end.

(** Start tags from behind the name: the attributes, whether the element ends there, and the rest.
    [None] also for want of fuel; one unit for each attribute and one more.
    src/glif/read.rs L75. *)
Fixpoint attributes (fuel : nat) (s : str) : option (list (str * str) * bool * str) :=
  match fuel with
  | O => None
  | S k =>
      let '(sp, s) := span xml_space s in
      match starts (lit "/>") s with
      | Some r => Some ([], true, r)
      | None =>
        match starts (lit ">") s with
        | Some r => Some ([], false, r)
        | None =>
          let '(n, r) := span name_char s in
          if negb (is_name n) || match sp with [] => true | _ => false end then None
          else match starts (lit "=") (skip_space r) with
          | None => None
          | Some r =>
            match skip_space r with
            | [] => None
            | q :: r =>
              if negb ((q =? 34) || (q =? 39)) then None
              else match cut [q] r with
              | None => None
              | Some (raw, r) =>
                if existsb (N.eqb 60) raw then None
                else match unescape None raw, attributes k r with
                | Some v, Some (l, e, r) => if existsb (str_eqb n) (map fst l) then None else Some ((n, v) :: l, e, r)
                | _, _ => None
                end
              end
            end
          end
        end
      end
  end.

(** The pieces of a document, src/glif/read.rs L75. *)
Inductive token := TStart (n : str) (a : list (str * str)) (ends : bool) | TEnd (n : str) | TText (s : str) | TCData (s : str) | TOther | TDoctype.

(** The next piece and the rest; no piece for white space between tags.
    src/glif/read.rs L75. *)
Definition lex1 (s : str) : option (option token * str) :=
  match s with
  | [] => None
  | c :: _ =>
    if c =? 60 then
      match starts (lit "<!--") s with
      | Some r => match cut (lit "-->") r with Some (_, r) => Some (Some TOther, r) | None => None end
      | None =>
      match starts (lit "<![CDATA[") s with
      | Some r => match cut (lit "]]>") r with Some (t, r) => Some (Some (TCData t), r) | None => None end
      | None =>
      match starts (lit "<?") s with
      | Some r => match cut (lit "?>") r with Some (_, r) => Some (Some TOther, r) | None => None end
      | None =>
      match starts (lit "<!DOCTYPE") s with
      | Some r => match cut (lit ">") r with Some (_, r) => Some (Some TDoctype, r) | None => None end
      | None =>
      match starts (lit "</") s with
      | Some r => let '(n, r) := span name_char r in
                  if is_name n then match starts (lit ">") (skip_space r) with Some r => Some (Some (TEnd n), r) | None => None end
                  else None
      | None => let '(n, r) := span name_char (tl s) in
                if is_name n then
                  match attributes (List.length r) r with Some (a, e, r) => Some (Some (TStart n a e), r) | None => None end
                else None
      end end end end end
    else
      let '(raw, r) := span (fun c => negb (c =? 60)) s in
      if forallb xml_space raw then Some (None, r)
      else match unescape None raw with Some t => Some (Some (TText t), r) | None => None end
  end.
(** All pieces; [fuel] is the length of the text, each piece having at least one character.
    src/glif/read.rs L75. *)
Fixpoint lex (fuel : nat) (s : str) : option (list token) :=
  match s with
  | [] => Some []
  | _ =>
    match fuel with
    | O => None
    | S k =>
      match lex1 s with
      | None => None
      | Some (o, r) => match lex k r with
                       | Some ts => Some (match o with Some t => t :: ts | None => ts end)
                       | None => None
                       end
      end
    end
  end.

(** The element under way inside those around it, each with its name, attributes and, backwards, its
    children so far, src/glif/read.rs L75. *)
Definition frame : Type := str * list (str * str) * list node.
(** src/glif/read.rs L75. *)
Definition is_other (t : token) : bool := match t with TOther => true | _ => false end.
(** The element of a document (`Element::parse`), src/glif/read.rs L75. *)
Fixpoint build (st : list frame) (ts : list token) : option element :=
  match ts with
  | [] => None
  | t :: ts =>
    match t, st with
    | TStart n a true, [] => if forallb is_other ts then Some (Element n a []) else None
    | TStart n a true, (n', a', c) :: st => build ((n', a', NElem (Element n a []) :: c) :: st) ts
    | TStart n a false, _ => build ((n, a, []) :: st) ts
    | TEnd n, (n', a', c) :: st =>
        if str_eqb n n' then
          match st with
          | [] => if forallb is_other ts then Some (Element n' a' (rev c)) else None
          | (n2, a2, c2) :: st => build ((n2, a2, NElem (Element n' a' (rev c)) :: c2) :: st) ts
          end
        else None
    | TText s, (n', a', c) :: st => build ((n', a', NText s :: c) :: st) ts
    | TCData s, (n', a', c) :: st => build ((n', a', NCData s :: c) :: st) ts
    | TOther, (n', a', c) :: st => build ((n', a', NOther :: c) :: st) ts
    | TOther, [] | TDoctype, [] => build [] ts
    | TDoctype, _ :: _ => None
    | _, [] => None
    end
  end.
(** `Element::parse`, src/glif/read.rs L75. *)
Definition parse_xml (s : str) : option element :=
  if forallb xml_char s then match lex (List.length s) s with Some ts => build [] ts | None => None end else None.
