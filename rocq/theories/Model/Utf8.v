(** The bytes of files: UTF-8 (table 3-7 of the Unicode standard, as `String::from_utf8` of the
    standard library has it). *)
Require Import Coq.Lists.List Coq.Bool.Bool Coq.NArith.NArith.
Require Import Verif.Model.Base Verif.Model.Text Verif.Model.Xml Verif.Model.XmlText Verif.Model.Names.
Import ListNotations.
Local Open Scope N_scope.

(** The bytes of a character; strings are held as these.  src/glif/write.rs L20, L27. *)
Definition utf8_char (c : N) : list N :=
  if c <? 128 then [c]
  else if c <? 2048 then [192 + c / 64; 128 + c mod 64]
  else if c <? 65536 then [224 + c / 4096; 128 + c / 64 mod 64; 128 + c mod 64]
  else [240 + c / 262144; 128 + c / 4096 mod 64; 128 + c / 64 mod 64; 128 + c mod 64].
(** src/glif/write.rs L20, L27. *)
Definition utf8_encode (s : str) : list N := flat_map utf8_char s.

(** A byte within bounds, src/glif/read.rs L55. *)
Definition within (a b x : N) : bool := (a <=? x) && (x <=? b).
(** A character before the rest, src/glif/read.rs L55. *)
Definition before_rest (c : N) (o : option str) : option str := match o with Some s => Some (c :: s) | None => None end.
(** `fs::read_to_string`, src/glif/read.rs L55, src/component.rs L135: [None] if the bytes are not
    UTF-8. *)
Fixpoint utf8_decode (b : list N) : option str :=
  match b with
  | [] => Some []
  | x :: b1 =>
    if x <? 128 then before_rest x (utf8_decode b1)
    else match b1 with
    | [] => None
    | y :: b2 =>
      if within 194 223 x && within 128 191 y then before_rest ((x - 192) * 64 + (y - 128)) (utf8_decode b2)
      else match b2 with
      | [] => None
      | z :: b3 =>
        if ((x =? 224) && within 160 191 y || within 225 236 x && within 128 191 y ||
            (x =? 237) && within 128 159 y || within 238 239 x && within 128 191 y) && within 128 191 z
        then before_rest ((x - 224) * 4096 + (y - 128) * 64 + (z - 128)) (utf8_decode b3)
        else match b3 with
        | [] => None
        | w :: b4 =>
          if ((x =? 240) && within 144 191 y || within 241 243 x && within 128 191 y || (x =? 244) && within 128 143 y) &&
             within 128 191 z && within 128 191 w
          then before_rest ((x - 240) * 262144 + (y - 128) * 4096 + (z - 128) * 64 + (w - 128)) (utf8_decode b4)
          else None
        end
      end
    end
  end.

(** The texts of the files of a disk, as `fs::read_to_string` gives them.
    src/glif/read.rs L55, src/component.rs L135. *)
Definition texts_of (disk : path -> option (list N)) (p : path) : option str :=
  match disk p with Some b => utf8_decode b | None => None end.
(** `write_ufo_glif_data` up to `glif.xml()`, src/glif/write.rs L31-42: the bytes of the XML. *)
Definition print_bytes (e : element) : option (list N) :=
  match print_xml e with Some t => Some (utf8_encode t) | None => None end.
