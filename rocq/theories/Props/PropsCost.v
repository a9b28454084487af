(** Property C111: how many files are read for the components of a glyph. *)
Require Import Coq.Strings.String Coq.Lists.List Coq.Arith.Arith Coq.NArith.NArith Coq.micromega.Lia.
Require Import Verif.Model.Base Verif.Model.Text Verif.Model.Num Verif.Model.RustNum Verif.Model.Point Verif.Model.Names Verif.Model.Pedantry Verif.Model.Xml Verif.Model.Parts Verif.Model.Read Verif.Model.Component Verif.Model.Cost
  Verif.Spec.ComponentSpec Verif.Spec.CostSpec Verif.Facts.ComponentFacts Verif.Facts.CostFacts Verif.Props.PropsComponent.
Import ListNotations.
Local Open Scope nat_scope.
Local Open Scope list_scope.

Section Cost.
Context (L : numlib) {PD PL : Type} (pd0 : PD) (P : plistlib PL).
Context {T : Type} (files : path -> option T) (parse : T -> option element).
Notation load := (to_component L pd0 P files parse).
Notation forest := (build_forest L pd0 P files parse).
Notation reads := (forest_reads L pd0 P files parse).

(** C111: if the components are resolved, a file was read for each component found, those of
    components included, and for no other; nothing is kept from one to the next. *)
Theorem C111_one_for_each : forall fuel cs ts, forest fuel cs = Some (Ok ts) -> reads fuel cs = nodes_of ts.
Proof. intros fuel cs ts. apply forest_reads_nodes. Qed.

(** C111: whatever comes of it: if the glyphs of the font mention only the names in the list, and
    none has more than k components, then no more than 1 + k + ... + k^n files are read for a
    component, n being the number of the names. *)
Theorem C111_bound : forall names k,
  (forall r c r', load r = Ok c -> In r' (parts c) -> In (c_base r') names) -> (forall r c, load r = Ok c -> length (parts c) <= k) ->
  forall fuel cs, reads fuel cs <= length (cs_vec cs) * powers k (length names).
Proof. intros names k Hn Hk fuel cs. now apply forest_reads_bound. Qed.

(** C111: in particular, if no glyph has more than one component: no more than the names, and one. *)
Theorem C111_bound_chain : forall names,
  (forall r c r', load r = Ok c -> In r' (parts c) -> In (c_base r') names) -> (forall r c, load r = Ok c -> length (parts c) <= 1) ->
  forall fuel cs, reads fuel cs <= length (cs_vec cs) * (1 + length names).
Proof.
  intros names Hn Hk fuel cs. replace (1 + length names) with (powers 1 (length names)); [now apply C111_bound|].
  induction (length names) as [|m IH]; [reflexivity|]. cbn [powers]. lia.
Qed.

(** C111: so for finitely many files there is a number of reads that is never exceeded. *)
Theorem C111_limited : forall texts, (forall p x, files p = Some x -> In x texts) ->
  exists b, forall fuel cs, reads fuel cs <= length (cs_vec cs) * b.
Proof.
  intros texts H. destruct (finite_names L pd0 P files parse texts H) as (names & Hn). destruct (finite_parts L pd0 P files parse texts H) as (k & Hk).
  exists (powers k (length names)). now apply C111_bound.
Qed.
End Cost.
Print Assumptions C111_one_for_each.
Print Assumptions C111_bound.
Print Assumptions C111_limited.
Print Assumptions C111_bound_chain.

(** C111: as many are read: in the font of n + 1 files that consist of the one before twice, the
    components of the last are resolved by reading 2^(n+1) - 2 files. *)
Theorem C111_tower : forall (L : numlib) (PD PL : Type) (pd0 : PD) (P : plistlib PL) ped n, exists g ts,
  read_from_filename L pd0 P element (file_in (tower n)) (@Some element) ped (tower_file n) = Ok g /\
  build_forest L pd0 P (file_in (tower n)) (@Some element) (S n) (g_components g) = Some (Ok ts) /\
  forest_reads L pd0 P (file_in (tower n)) (@Some element) (S n) (g_components g) = 2 ^ S n - 2 /\ length (tower n) = S n.
Proof.
  intros L PD PL pd0 P ped n. destruct (tower_forest L pd0 P n ped) as (g & ts & E & _ & F & N). exists g, ts. split; [exact E|]. split; [exact F|]. split.
  - rewrite (C111_one_for_each L pd0 P _ _ _ _ _ F). lia.
  - unfold tower. rewrite map_length. apply seq_length.
Qed.
Print Assumptions C111_tower.

(** C111: so the files read are not in proportion to the files of the font: there is no number c
    such that c times the files of the font are enough for each glyph whose components are resolved. *)
Theorem C111_in_proportion_refuted :
  ~ exists c, forall (l : list (path * element)) fn (g : glif unit unit) fuel ts,
      read_from_filename rust_num tt nopl element (file_in l) (@Some element) pedantry_default fn = Ok g ->
      build_forest rust_num tt nopl (file_in l) (@Some element) fuel (g_components g) = Some (Ok ts) ->
      forest_reads rust_num tt nopl (file_in l) (@Some element) fuel (g_components g) <= c * length l.
Proof.
  intros (c & H). destruct (C111_tower rust_num unit unit tt nopl pedantry_default (c + 4)) as (g & ts & E & F & R & Ln).
  specialize (H _ _ _ _ _ E F). rewrite R, Ln in H. clear - H. assert (forall m, (m + 5) * (m + 5) < 2 ^ (m + 5)) as X.
  { induction m as [|m IH]; [cbn; lia|]. change (S m + 5) with (S (m + 5)). rewrite Nat.pow_succ_r'. nia. }
  specialize (X c). replace (S (c + 4)) with (c + 5) in H by lia. nia.
Qed.
Print Assumptions C111_in_proportion_refuted.

(** Cases: the components of `thrice` (`twice`, `once`, `base`, and `base` again), a font with a
    cycle, and the tower of four. *)
Example C111_case : exists g ts, glyph_of "thrice.glif" = Ok g /\ build_forest rust_num tt nopl font Some 10 (g_components g) = Some (Ok ts) /\
  forest_reads rust_num tt nopl font Some 10 (g_components g) = 4.
Proof. eexists. eexists. split; [vm_compute; reflexivity|]. split; vm_compute; reflexivity. Qed.
Example C111_case_cycle : exists g e, glyph_of "this.glif" = Ok g /\ build_forest rust_num tt nopl font Some 10 (g_components g) = Some (Err e) /\
  forest_reads rust_num tt nopl font Some 10 (g_components g) = 3.
Proof. eexists. eexists. split; [vm_compute; reflexivity|]. split; vm_compute; reflexivity. Qed.
Example C111_case_bound : exists names k, (forall r c r', to_component rust_num tt nopl font Some r = Ok c -> In r' (parts c) -> In (c_base r') names) /\
  (forall r c, to_component rust_num tt nopl font Some r = Ok c -> length (parts c) <= k).
Proof.
  destruct C31_case as (texts & H). destruct (finite_names rust_num tt nopl font Some texts H) as (names & Hn).
  destruct (finite_parts rust_num tt nopl font Some texts H) as (k & Hk). now exists names, k.
Qed.
