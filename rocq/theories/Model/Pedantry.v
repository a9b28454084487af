(** Strictness settings.  src/pedantry.rs. *)
Require Import Coq.Bool.Bool.
Require Import Verif.Model.Base Verif.Model.Float Verif.Model.Num.

(** src/pedantry.rs L17-25 *)
Inductive mend := MendAlways | MendNever | MendUfoSpecErrorsOnly | MendUfoSpecOutdatedOnly.
(** src/pedantry.rs L27-43 *)
Inductive level := LevelGlifParser | LevelUfo | LevelOpenType | LevelTrueType.
(** src/pedantry.rs L5-9 *)
Record pedantry := mkPedantry { ped_level : level; ped_mend : mend }.
(** Defaults: src/pedantry.rs L20, L30. *)
Definition pedantry_default := mkPedantry LevelGlifParser MendAlways.

(** src/pedantry.rs L66-68 *)
Definition is_sfnt (l : level) : bool :=
  match l with LevelOpenType | LevelTrueType => true | _ => false end.

(** src/pedantry.rs L12-14 *)
Definition should_mend (p : pedantry) : bool :=
  negb (is_sfnt (ped_level p) && match ped_mend p with MendNever => true | _ => false end).

(** src/pedantry.rs L45-55 *)
Inductive float_class := FCAnchor | FCAdvanceWidth.
(** src/pedantry.rs L51-55. *)
Definition should_round (fc : float_class) : bool :=
  match fc with FCAnchor => true | FCAdvanceWidth => false end.

(** src/pedantry.rs L58-64 *)
Definition maybe_round (l : level) (f : iof) (fc : float_class) : f32 :=
  if is_sfnt l && should_round fc then round32 (f32_of_iof f) else f32_of_iof f.
