(** How the enums of a glyph are read. *)
Require Import Coq.Strings.String Coq.Lists.List Coq.NArith.NArith Coq.ZArith.ZArith Coq.Arith.Arith Coq.Bool.Bool.
Require Import Verif.Model.Base Verif.Model.Text Verif.Model.Float Verif.Model.Num Verif.Model.Point
  Verif.Model.Contour Verif.Model.Names Verif.Model.Color Verif.Model.Xml Verif.Model.Parts Verif.Model.Component
  Verif.Model.Mpoint Verif.Model.Mfek Verif.Model.Serde Verif.Spec.SerdeSpec Verif.Facts.NamesFacts Verif.Facts.SerdeFacts Verif.Facts.SerdeReadFacts.
Import ListNotations.
Local Open Scope string_scope.

(** * Enums with values *)

Lemma variant_obj j s v : variant j = Some (s, Some v) -> j = JObj [(s, v)].
Proof. destruct j as [| | | |t|l|[|[k w] [|]]]; try discriminate. now intros [= -> ->]. Qed.
Lemma variant_unit j s v : variant j = Some (s, v) -> is_unit v = true -> j = JStr s \/ j = JObj [(s, JNull)].
Proof.
  destruct j as [| | | |t|l|[|[k w] [|]]]; try discriminate.
  - intros [= -> <-] _. now left.
  - intros [= -> <-]. cbn. destruct w; try discriminate. now right.
Qed.
(** The chain of tests that a derived reader is. *)
Fixpoint chain {A} (news : list (string * (json -> option A))) (s : str) (v : option json) : option A :=
  match news with
  | [] => None
  | (n, f) :: t => if str_eqb s (lit n) then (let? v := v in f v) else chain t s v
  end.
Fixpoint unit_chain {A} (names : list (string * A)) (s : str) (v : option json) (k : option A) : option A :=
  match names with
  | [] => k
  | (n, a) :: t => if str_eqb s (lit n) then (if is_unit v then Some a else None) else unit_chain t s v k
  end.
Lemma chain_says {A} (news : list (string * (json -> option A))) s v a :
  NoDup (map (fun e => lit (fst e)) news) ->
  chain news s v = Some a <-> exists n f w, In (n, f) news /\ s = lit n /\ v = Some w /\ f w = Some a.
Proof.
  induction news as [|[m g] t IH]; intros D; cbn [chain In].
  - split; [discriminate|]. intros (n & f & w & [] & _).
  - apply NoDup_cons_iff in D as [D1 D2]. specialize (IH D2). destruct (str_eqb s (lit m)) eqn:E.
    + apply str_eqb_eq in E. subst s. split.
      * destruct v as [w|]; [|discriminate]. cbn [obind]. intros H. exists m, g, w. auto.
      * intros (n & f & w & [[= <- <-]|I] & En & -> & HH); [exact HH|]. exfalso. apply D1. cbn [fst]. rewrite En.
        apply (in_map (fun e => lit (fst e)) t (n, f) I).
    + rewrite IH. split; intros (n & f & w & I & En & HH); exists n, f, w; [auto|]. split; [|auto].
      destruct I as [[= <- <-]|I]; [|assumption]. subst s.
      assert (Q : str_eqb (lit m) (lit m) = true) by now apply str_eqb_eq. congruence.
Qed.
Lemma unit_chain_says {A} (names : list (string * A)) s v k a :
  NoDup (map (fun e => lit (fst e)) names) -> (k = Some a -> ~ In s (map (fun e => lit (fst e)) names)) ->
  unit_chain names s v k = Some a <-> (exists n, In (n, a) names /\ s = lit n /\ is_unit v = true) \/ k = Some a.
Proof.
  induction names as [|[m b] t IH]; intros D K; cbn [unit_chain In].
  - split; [auto|]. intros [(n & [] & _)|H]; assumption.
  - apply NoDup_cons_iff in D as [D1 D2]. destruct (str_eqb s (lit m)) eqn:E.
    + apply str_eqb_eq in E. subst s. split.
      * destruct (is_unit v) eqn:U; [|discriminate]. intros [= <-]. left. exists m. auto.
      * intros [(n & [[= <- <-]|I] & En & U)|H].
        -- now rewrite U.
        -- exfalso. apply D1. cbn [fst]. rewrite En. apply (in_map (fun e => lit (fst e)) t (n, a) I).
        -- exfalso. apply (K H). now left.
    + rewrite IH; [|assumption|intros H I; apply (K H); now right]. split; (intros [(n & I & En & U)|H]; [left; exists n|now right]).
      * auto.
      * destruct I as [[= <- <-]|I]; [|auto]. subst s.
        assert (Q : str_eqb (lit m) (lit m) = true) by now apply str_eqb_eq. congruence.
Qed.
Lemma reads_chain {A} (de : json -> option A) (names : list (string * A)) (news : list (string * (json -> option A))) :
  NoDup (map (fun e => lit (fst e)) names) -> NoDup (map (fun e => lit (fst e)) news) ->
  (forall x, In x (map (fun e => lit (fst e)) news) -> ~ In x (map (fun e => lit (fst e)) names)) ->
  (forall j, de j = let? (s, v) := variant j in unit_chain names s v (chain news s v)) ->
  reads_variants de names news.
Proof.
  intros D1 D2 D3 E j a. rewrite E. split.
  - destruct (variant j) as [[s v]|] eqn:V; [|discriminate]. cbn [obind]. rewrite unit_chain_says; [|assumption|].
    + intros [(n & I & -> & U)|C].
      * left. exists n. split; [assumption|]. now apply (variant_unit j (lit n) v).
      * right. apply chain_says in C as (n & f & w & I & -> & -> & F); [|assumption]. exists n, f, w.
        split; [assumption|]. split; [|assumption]. now apply variant_obj.
    + intros C. apply chain_says in C as (n & f & w & I & -> & _); [|assumption]. apply D3.
      exact (in_map (fun e => lit (fst e)) news (n, f) I).
  - intros [(n & I & J)|(n & f & w & I & -> & F)].
    + assert (Q : exists v, variant j = Some (lit n, v) /\ is_unit v = true).
      { destruct J as [-> | ->]; eexists; split; reflexivity. }
      destruct Q as (v & -> & U). cbn [obind]. rewrite unit_chain_says; [left; eauto|assumption|].
      intros C. apply chain_says in C as (m & f & w & I' & E' & _); [|assumption]. rewrite E'. apply D3.
      exact (in_map (fun e => lit (fst e)) news (m, f) I').
    + cbn [variant obind]. assert (C : chain news (lit n) (Some w) = Some a) by (apply chain_says; [assumption|exists n, f, w; auto]).
      rewrite unit_chain_says; [right; exact C|assumption|].
      intros _. apply D3. exact (in_map (fun e => lit (fst e)) news (n, f) I).
Qed.

Ltac distinct := repeat constructor; cbn [In map fst]; intros H; repeat (destruct H as [H|H]; [discriminate H|]); destruct H.
Ltac disjoint := cbn [map fst In]; intros x H; repeat (destruct H as [<-|H]; [let G := fresh in intros G; repeat (destruct G as [G|G]; [discriminate G|]); destruct G|]); destruct H.
Ltac by_chain de := apply reads_chain; [distinct|distinct|disjoint|]; intros j; unfold de; cbn [unit_chain chain].

Section Enums.
Context {PD PL : Type} (S : serdelib PD PL).
Lemma variants_handle : reads_variants de_handle [("Colocated", Colocated)]
  [("At", fun v => match v with JArr [x; y] => let? x := de_f32 x in let? y := de_f32 y in Some (At x y) | _ => None end)].
Proof.
  by_chain @de_handle. apply obind_ext; [reflexivity|]. intros [s v].
  destruct (str_eqb s (lit "At")) eqn:E1, (str_eqb s (lit "Colocated")) eqn:E2; try reflexivity.
  - apply str_eqb_eq in E1, E2. subst s. discriminate E2.
Qed.
Lemma variants_lib : reads_variants (de_lib S) [("None", LNone)] [("Plist", fun v => option_map LPlist (pl_de S v))].
Proof.
  by_chain @de_lib. apply obind_ext; [reflexivity|]. intros [s v].
  destruct (str_eqb s (lit "None")); [reflexivity|]. destruct (str_eqb s (lit "Plist")); [|reflexivity].
  destruct v as [v|]; [|reflexivity]. cbn [obind]. destruct (pl_de S v); reflexivity.
Qed.
Lemma variants_subdivide : reads_variants de_subdivide [("Off", SubOff)]
  [("Simple", fun v => option_map SubSimple (de_nat u64_bound v)); ("Angle", fun v => option_map SubAngle (de_f64 v))].
Proof.
  by_chain @de_subdivide. apply obind_ext; [reflexivity|]. intros [s v].
  destruct (str_eqb s (lit "Off")); [reflexivity|]. destruct (str_eqb s (lit "Simple")); [|destruct (str_eqb s (lit "Angle")); [|reflexivity]];
  (destruct v as [v|]; [|reflexivity]); cbn [obind]; [destruct (de_nat u64_bound v)|destruct (de_f64 v)]; reflexivity.
Qed.
Lemma variants_culling : reads_variants de_culling [("Off", CullOff); ("RemoveOverlapping", CullRemove)]
  [("EraseOverlapping", fun v => option_map (fun p => CullErase (fst p) (snd p)) (de_pair v))].
Proof.
  by_chain @de_culling. apply obind_ext; [reflexivity|]. intros [s v].
  destruct (str_eqb s (lit "Off")); [reflexivity|]. destruct (str_eqb s (lit "RemoveOverlapping")); [reflexivity|].
  destruct (str_eqb s (lit "EraseOverlapping")); [|reflexivity].
  destruct v as [v|]; [|reflexivity]. cbn [obind]. destruct (de_pair v) as [[? ?]|]; reflexivity.
Qed.
Lemma variant_data_says {A B} (make : A -> B) (de : json -> option A) v :
  (let? x := variant_data de (Some v) in Some (make x)) = named_data make de v.
Proof.
  destruct v; try reflexivity. cbn [variant_data named_data]. unfold req, field. destruct (lookup (lit "data") l) as [d|]; [|reflexivity].
  cbn [obind]. destruct (de d); reflexivity.
Qed.
Lemma variants_operations {C} (de : json -> option C) : reads_variants (de_operations de) []
  [("VariableWidthStroke", named_data OpVws de_vws); ("PatternAlongPath", named_data OpPap (de_pap de));
   ("DashAlongPath", named_data OpDash de_dash)].
Proof.
  by_chain @de_operations. apply obind_ext; [reflexivity|]. intros [s v].
  destruct (str_eqb s (lit "VariableWidthStroke")); [|destruct (str_eqb s (lit "PatternAlongPath")); [|destruct (str_eqb s (lit "DashAlongPath")); [|reflexivity]]];
  (destruct v as [v|]; [|reflexivity]); apply variant_data_says.
Qed.
Lemma variants_inner : reads_variants (de_inner S) []
  [("Cubic", fun v => option_map Cubic (de_vec (de_point S) v)); ("Quad", fun v => option_map Quad (de_vec (de_qpoint S) v));
   ("Hyper", fun v => option_map (fun h => Hyper (fst h) (snd h)) (de_hyper_inner S v))].
Proof.
  by_chain @de_inner. apply obind_ext; [reflexivity|]. intros [s v].
  destruct (str_eqb s (lit "Cubic")); [|destruct (str_eqb s (lit "Quad")); [|destruct (str_eqb s (lit "Hyper")); [|reflexivity]]];
  (destruct v as [v|]; [|reflexivity]); cbn [obind];
  [destruct (de_vec (de_point S) v)|destruct (de_vec (de_qpoint S) v)|destruct (de_hyper_inner S v) as [[? ?]|]]; reflexivity.
Qed.
Lemma variants_mfek_data : reads_variants de_mfek_data [] [("Guideline", de_mfek_info)].
Proof. by_chain @de_mfek_data. reflexivity. Qed.
Lemma reads_mfek_info : reads_struct de_mfek_info ["fixed"; "format"; "right"] ["fixed"; "format"; "right"] [] 3.
Proof. reads @de_mfek_info. Qed.
End Enums.
