(** Hashing points, components and outlines. *)
Require Import Coq.Strings.String Coq.Lists.List Coq.NArith.NArith Coq.ZArith.ZArith Coq.Bool.Bool Coq.Floats.SpecFloat.
Require Import Verif.Model.Base Verif.Model.Text Verif.Model.Float Verif.Model.Num Verif.Model.RustNum Verif.Model.Point Verif.Model.Contour Verif.Model.Names Verif.Model.Color
  Verif.Model.Parts Verif.Model.Mfek Verif.Model.Serde Verif.Model.Equal Verif.Model.Hash Verif.Spec.TextSpec Verif.Spec.EqualSpec Verif.Spec.HashSpec
  Verif.Facts.EqualFacts Verif.Facts.HashFacts.
Import ListNotations.
Local Open Scope string_scope.
Local Open Scope list_scope.

(** C104: points, components and outlines as files have them compare field by field. *)
Theorem C104_equal_exactly : forall (L : numlib) (num : iof -> iof -> Prop), (forall a b, iof_eqb L a b = true <-> num a b) ->
  (forall p q, glifpoint_eqb L p q = true <-> same_glifpoint num p q) /\
  (forall c d, component_eqb L c d = true <-> same_component num c d) /\
  (forall o o', glifoutline_eqb L o o' = true <-> same_glifoutline num o o').
Proof.
  intros L num H. split; [|split].
  - apply (glifpoint_decides L num H).
  - apply (component_decides L num H).
  - apply (glifoutline_decides L num H).
Qed.
Print Assumptions C104_equal_exactly.

(** C104: they are hashed equally when equal, exactly if numbers are. *)
Theorem C104_equal_hashed_equally : forall (L : numlib) (num_hash : iof -> list word) (path_hash : path -> list word) (i : iof), iof_eqb L i i = true ->
  ((forall p q, glifpoint_eqb L p q = true -> hash_glifpoint num_hash p = hash_glifpoint num_hash q) /\
   (forall c d, component_eqb L c d = true -> hash_component num_hash path_hash c = hash_component num_hash path_hash d) /\
   (forall o o', glifoutline_eqb L o o' = true -> hash_glifoutline num_hash path_hash o = hash_glifoutline num_hash path_hash o')
   <-> forall a b, iof_eqb L a b = true -> num_hash a = num_hash b).
Proof.
  intros L nh ph i Ri. destruct (C104_equal_exactly L (fun a b => iof_eqb L a b = true)) as (E1 & E2 & E3); [tauto|]. split.
  - intros (H & _) a b E. specialize (H (mkGP a i false None Line) (mkGP b i false None Line)).
    assert (glifpoint_eqb L (mkGP a i false None Line) (mkGP b i false None Line) = true) as G by (apply E1; repeat split; assumption).
    apply H in G. unfold hash_glifpoint in G. cbn [gx gy gsmooth gname gptype] in G. now apply app_inv_tail in G.
  - intros H. split; [|split].
    + intros p q E. apply E1 in E. now apply (glifpoint_same nh _ H).
    + intros p q E. apply E2 in E. now apply (component_same nh ph _ H).
    + intros p q E. apply E3 in E. now apply (glifoutline_same nh ph _ H).
Qed.
Print Assumptions C104_equal_hashed_equally.

(** C104: and the hasher is given all of them: if what it is given tells numbers and paths apart, it tells the
    values apart, whatever is hashed after them. *)
Theorem C104_tells_all : forall (num_hash : iof -> list word) (path_hash : path -> list word) (num : iof -> iof -> Prop),
  tells num_hash num -> tells path_hash eq ->
  tells (hash_glifpoint num_hash) (same_glifpoint num) /\
  tells (hash_component num_hash path_hash) (same_component num) /\
  tells (hash_glifoutline num_hash path_hash) (same_glifoutline num).
Proof.
  intros nh ph num Hn Hp. split; [|split].
  - now apply tells_glifpoint.
  - now apply tells_component.
  - now apply tells_glifoutline.
Qed.
Print Assumptions C104_tells_all.

(** C104: the types of points, sides of a point, ends of a contour and kinds of contours are told apart. *)
Theorem C104_enums : tells hash_ptype eq /\ tells hash_which eq /\ tells hash_end eq /\ tells hash_inner_type eq.
Proof. split; [apply tells_ptype|]. split; [apply tells_which|]. split; [apply tells_end|apply tells_inner_type]. Qed.
Print Assumptions C104_enums.

(** Hashes of numbers and paths as the theorems ask for. *)
Definition ex_num_hash (i : iof) : list word :=
  let sign (s : bool) := WIsize (if s then 1 else 0) in
  match i with
  | IInt z => [WIsize 0; WIsize z]
  | IFloat (S754_zero s) => [WIsize 1; sign s]
  | IFloat (S754_infinity s) => [WIsize 2; sign s]
  | IFloat S754_nan => [WIsize 3]
  | IFloat (S754_finite s m e) => [WIsize 4; sign s; WIsize (Zpos m); WIsize e]
  end.
Example C104_tells_case : tells ex_num_hash eq /\ tells (hash_vec hash_str) eq.
Proof.
  split.
  - intros a b r r'. split; [|now intros [-> ->]].
    destruct a as [z|[[]|[]| |[] m e]], b as [z'|[[]|[]| |[] m' e']]; cbn; try discriminate; intros [= ]; subst; auto.
  - apply (tells_ext _ (Forall2 eq)); [intros; apply Forall2_eq_iff|apply tells_vec, tells_str].
Qed.
Example C104_case :
  let o := mkGO [[mkGP (IInt 1) (IFloat (fl "2.5")) true (Some (lit "top")) Curve]; []]
                [mkComponent (lit "a") (Some [lit "a.glif"]) (mkMatrix (IInt 1) (IInt 0) (IInt 0) (IInt 1) (IInt 3) (IInt 4)) None] in
  let o' := mkGO [[mkGP (IInt 1) (IFloat (fl "2.5")) true (Some (lit "top")) Line]; []]
                [mkComponent (lit "a") (Some [lit "a.glif"]) (mkMatrix (IInt 1) (IInt 0) (IInt 0) (IInt 1) (IInt 3) (IInt 4)) None] in
  glifoutline_eqb rust_num o o = true /\ glifoutline_eqb rust_num o o' = false /\
  hash_glifoutline ex_num_hash (hash_vec hash_str) o <> hash_glifoutline ex_num_hash (hash_vec hash_str) o' /\
  length (hash_glifoutline ex_num_hash (hash_vec hash_str) o) = 41.
Proof. cbv zeta. split; [vm_compute; reflexivity|]. split; [vm_compute; reflexivity|]. split; [vm_compute; discriminate|]. vm_compute. reflexivity. Qed.
