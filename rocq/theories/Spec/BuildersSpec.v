(** The last of a chain of settings wins. *)
Require Import Coq.Lists.List.
Import ListNotations.

(** The value chosen by the last element of the list for which [f] gives one. *)
Fixpoint last_given {A B} (f : A -> option B) (l : list A) : option B :=
  match l with
  | [] => None
  | x :: t => match last_given f t with Some y => Some y | None => f x end
  end.
Definition or_else {B} (o : option B) (d : B) : B := match o with Some y => y | None => d end.
