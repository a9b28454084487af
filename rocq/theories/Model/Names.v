(** File names of glyphs.  src/glif.rs. *)
Require Import Coq.Lists.List Coq.NArith.NArith Coq.Bool.Bool Coq.Strings.String.
Require Import Verif.Model.Base Verif.Model.Text.
Import ListNotations.

(** `('A'..'Z').contains(&c)`: a half-open range, src/glif.rs L116. *)
Definition in_AZ_range (c : N) : bool := ((65 <=? c) && (c <? 90))%N.

(** src/glif.rs L114-119 (loop body) *)
Definition push_name_char (ret : str) (c : N) : str :=
  let ret := ret ++ [c] in
  if in_AZ_range c then ret ++ [95%N] else ret.

(** src/glif.rs L111-124 *)
Definition name_to_filename (name : str) (append_extension : bool) : str :=
  let ret := fold_left push_name_char name [] in
  if append_extension then ret ++ lit ".glif" else ret.

(** Paths (std::path::PathBuf) are their lists of components, as `Path::components` gives them:
    `/` for the root, `.` only in the first place, `..`, or a name.  Simplifications: Unix
    separators; a separator at the end is not kept; components are Unicode; nothing is
    interpreted, so `..` stays.
    src/glif.rs L66. *)
Definition path := list str.

(** The components of a text taken as a path (`Path::components`): empty components and `.`
    are skipped, but for a `.` in front.
    Where texts become paths: src/component.rs L120, src/image.rs L161-163, src/glif/read.rs L169. *)
Definition path_of (s : str) : path :=
  let names := filter (fun c => negb (str_eqb c []) && negb (str_eqb c (lit "."))) (split_on 47 s) in
  match split_on 47 s with
  | [] :: _ :: _ => lit "/" :: names
  | c :: _ => if str_eqb c (lit ".") then c :: names else names
  | [] => names
  end.

(** `Path::is_absolute`
    src/component.rs L120, src/image.rs L163 (what `push` asks). *)
Definition path_absolute (p : path) : bool :=
  match p with c :: _ => str_eqb c (lit "/") | [] => false end.

(** `PathBuf::push`: an absolute path replaces the path.
    src/component.rs L120, src/image.rs L161-163. *)
Definition path_push (p q : path) : path :=
  if path_absolute q then q
  else match p with
       | [] => q
       | _ => p ++ match q with c :: q' => if str_eqb c (lit ".") then q' else q | [] => [] end
       end.

(** `Component::Normal`: a component that is a name.
    src/glif.rs L83, src/component.rs L120. *)
Definition path_normal (c : str) : bool :=
  negb (str_eqb c (lit "/") || str_eqb c (lit ".") || str_eqb c (lit "..")).

(** `Path::file_name`
    src/glif.rs L83. *)
Definition path_file_name (p : path) : option str :=
  match rev p with f :: _ => if path_normal f then Some f else None | [] => None end.

(** `PathBuf::set_file_name`
    src/component.rs L120. *)
Definition path_set_file_name (p : path) (f : str) : path :=
  path_push (match path_file_name p with Some _ => removelast p | None => p end) (path_of f).

(** `Path::parent`
    src/image.rs L160. *)
Definition path_parent (p : path) : option path :=
  match rev p with
  | c :: _ => if str_eqb c (lit "/") then None else Some (removelast p)
  | [] => None
  end.

(** src/glif.rs L80-92: `Glif::filename_is_sane` for the fields it reads. *)
Definition filename_is_sane (name : str) (filename : option path) : res bool :=
  match filename with
  | Some p =>
      match path_file_name p with
      | Some f => Ok (str_eqb (name_to_filename name true) f)
      | None => Err (EFilenameInsane "Glif file name is directory")
      end
  | None => Err (EFilenameInsane "Glif file name is not set")
  end.
