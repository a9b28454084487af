(** How many files are read for the components of a glyph. *)
Require Import Coq.Strings.String Coq.Lists.List Coq.Arith.Arith Coq.NArith.NArith Coq.micromega.Lia.
Require Import Verif.Model.Base Verif.Model.Text Verif.Model.Num Verif.Model.RustNum Verif.Model.Point Verif.Model.Names Verif.Model.Pedantry Verif.Model.Xml Verif.Model.Parts Verif.Model.Read Verif.Model.Component Verif.Model.Cost
  Verif.Spec.TextSpec Verif.Spec.ComponentSpec Verif.Spec.CostSpec Verif.Facts.TextFacts Verif.Facts.NamesFacts Verif.Facts.PathFacts Verif.Facts.ComponentFacts.
Import ListNotations.
Local Open Scope nat_scope.
Local Open Scope list_scope.

Section Cost.
Context (L : numlib) {PD PL : Type} (pd0 : PD) (P : plistlib PL).
Context {T : Type} (files : path -> option T) (parse : T -> option element).
Local Notation component := (component PD PL).
Local Notation ctree := (ctree PD PL).
Local Notation load := (to_component L pd0 P files parse).
Local Notation children := (build_children L pd0 P files parse).
Local Notation tree := (build_component_tree L pd0 P files parse).
Local Notation forest_loop := (build_forest_loop L pd0 P files parse).
Local Notation creads := (children_reads L pd0 P files parse).
Local Notation treads := (tree_reads L pd0 P files parse).

(** What is read is what is found. *)
Lemma children_reads_nodes rec cost root from : (forall u c t u', rec u c = Some (Ok (t, u')) -> S (cost u c) = nodes t) ->
  forall gcs u ts u', children rec root from u gcs = Some (Ok (ts, u')) -> creads rec cost u gcs = nodes_of ts.
Proof.
  intros H. induction gcs as [|gc gcs IH]; intros u ts u' E; cbn [build_children children_reads] in *.
  - injection E as <- <-. reflexivity.
  - destruct (set_mem (c_base gc) u); [discriminate|]. destruct (load gc) as [c| |]; try discriminate.
    destruct (rec (c_base gc :: u) c) as [[[t u1]| |]|] eqn:R; try discriminate.
    destruct (children rec root from (set_remove (c_base gc) u1) gcs) as [[[ts1 u2]| |]|] eqn:C; try discriminate. injection E as <- <-.
    rewrite (IH _ _ _ C). apply H in R. unfold nodes_of. cbn [map list_sum fold_right]. unfold list_sum in *. lia.
Qed.
Lemma tree_reads_nodes root n : forall u c t u', tree n root u c = Some (Ok (t, u')) -> S (treads n root u c) = nodes t.
Proof.
  induction n as [|n IH]; intros u c t u' E; [discriminate|]. cbn [build_component_tree tree_reads] in *.
  destruct (children (tree n root) root (g_name (cp_glif c)) u (cs_vec (g_components (cp_glif c)))) as [[[ts u1]| |]|] eqn:C; try discriminate. injection E as <- <-.
  cbn [nodes]. f_equal. eapply children_reads_nodes; [|exact C]. exact IH.
Qed.
Lemma forest_reads_nodes root n : forall gcs u ts, forest_loop n root u gcs = Some (Ok ts) -> forest_loop_reads L pd0 P files parse n root u gcs = nodes_of ts.
Proof.
  induction gcs as [|gc gcs IH]; intros u ts E; cbn [build_forest_loop forest_loop_reads] in *.
  - injection E as <-. reflexivity.
  - destruct (load gc) as [c| |]; try discriminate. destruct (tree n root u c) as [[[t u1]| |]|] eqn:R; try discriminate.
    destruct (forest_loop n root u1 gcs) as [[ts1| |]|] eqn:C; try discriminate. injection E as <-.
    rewrite (IH _ _ C). apply tree_reads_nodes in R. unfold nodes_of. cbn [map list_sum fold_right]. unfold list_sum in *. lia.
Qed.

(** The bound. *)
Section Bound.
Context (names : list str) (k : nat).
Context (Hn : forall r c r', load r = Ok c -> In r' (parts c) -> In (c_base r') names).
Context (Hk : forall r c, load r = Ok c -> length (parts c) <= k).

Lemma tree_reads_bound root n : forall u (c : component), (forall r, In r (parts c) -> In (c_base r) names) -> length (parts c) <= k ->
  forall m, room names u <= m -> S (treads n root u c) <= powers k m.
Proof.
  induction n as [|n IH]; intros u c Hc Hl m Hm; [destruct m; cbn; lia|]. cbn [tree_reads]. change (cs_vec (g_components (cp_glif c))) with (parts c).
  assert (forall gcs, (forall r, In r gcs -> In (c_base r) names) -> creads (tree n root) (treads n root) u gcs <= match m with O => 0 | S m => length gcs * powers k m end) as B.
  { induction gcs as [|r gcs IHg]; intros Hg; [destruct m; cbn; lia|]. cbn [children_reads].
    destruct (set_mem_spec (c_base r) u) as [|Hni]; [lia|]. pose proof (room_less names u (c_base r) (Hg r (or_introl eq_refl)) Hni) as R.
    destruct m as [|m]; [lia|]. assert (1 <= powers k m) as P1 by (destruct m; cbn; lia).
    specialize (IHg (fun x Hx => Hg x (or_intror Hx))). cbn [length]. destruct (load r) as [c1| |] eqn:El; [|lia|lia].
    assert (S (treads n root (c_base r :: u) c1) <= powers k m) as B1 by (apply IH; [intros x Hx; eapply Hn; eassumption|eapply Hk; eassumption|lia]).
    destruct (tree n root (c_base r :: u) c1) as [[[t u1]| |]|] eqn:E; try lia.
    apply tree_ok in E as (-> & _). rewrite (set_remove_cons _ _ Hni). lia. }
  specialize (B (parts c) Hc). destruct m as [|m]; cbn [powers]; [lia|]. nia.
Qed.
Lemma forest_reads_bound root n u : forall gcs, forest_loop_reads L pd0 P files parse n root u gcs <= length gcs * powers k (length names).
Proof.
  assert (room names u <= length names) as R by (unfold room; clear; induction names as [|b l IH]; [reflexivity|]; cbn [filter]; destruct (negb _); cbn [length]; lia).
  assert (1 <= powers k (length names)) as P1 by (destruct (length names); cbn; lia).
  induction gcs as [|r gcs IH]; cbn [forest_loop_reads length]; [lia|]. destruct (load r) as [c| |] eqn:El; [|lia|lia].
  assert (S (treads n root u c) <= powers k (length names)) as B by (apply tree_reads_bound; [intros x Hx; eapply Hn; eassumption|eapply Hk; eassumption|exact R]).
  destruct (tree n root u c) as [[[t u1]| |]|] eqn:E; try lia. apply tree_ok in E as (-> & _). lia.
Qed.
End Bound.

Lemma finite_parts texts : (forall p x, files p = Some x -> In x texts) -> exists k, forall r c, load r = Ok c -> length (parts c) <= k.
Proof.
  intros H. set (size := fun x => match parse x with
      | Some e => match read_element L pd0 P pedantry_default e with Ok g => length (cs_vec (g_components g)) | _ => 0 end
      | None => 0 end). exists (list_sum (map size texts)).
  intros r c Hl. unfold to_component in Hl. destruct (c_filename r) as [fn|]; cbn [ok_or bind] in Hl; [|discriminate].
  destruct (files fn) as [x|] eqn:Ef; cbn [ok_or bind] in Hl; [|discriminate]. destruct (parse x) as [e|] eqn:Ep; cbn [ok_or bind] in Hl; [|discriminate].
  destruct (read_element L pd0 P pedantry_default e) as [g| |] eqn:Er; cbn [bind] in Hl; try discriminate. injection Hl as <-.
  unfold parts. cbn [cp_glif g_components cs_vec]. rewrite map_length. assert (size x = length (cs_vec (g_components g))) as <- by (unfold size; now rewrite Ep, Er).
  assert (In x texts) as I by now apply (H fn). clear - I. induction texts as [|y l IH]; [destruct I|]. unfold list_sum in *. cbn [map fold_right]. destruct I as [->|I]; [lia|]. specialize (IH I). lia.
Qed.
End Cost.

(** The tower. *)
Section Tower.
Context (L : numlib) {PD PL : Type} (pd0 : PD) (P : plistlib PL) (n : nat).
Local Notation font := (file_in (tower n)).
Local Notation load := (to_component L pd0 P font (@Some element)).
Local Notation tree := (build_component_tree L pd0 P font (@Some element)).
Local Notation forest_loop := (build_forest_loop L pd0 P font (@Some element)).

Definition tower_part (m : nat) : glifcomponent := mkComponent (tower_name m) (Some (tower_file m)) (c_matrix (component_new L)) None.
Definition tower_parts (m : nat) : list glifcomponent := match m with O => [] | S m => [tower_part m; tower_part m] end.

Lemma tower_name_inj a b : tower_name a = tower_name b -> a = b.
Proof. intros H. apply (f_equal (@List.length N)) in H. unfold tower_name in H. rewrite !repeat_length in H. lia. Qed.
Lemma tower_plain m : ~ In 47%N (tower_name m).
Proof. unfold tower_name. intros H. apply repeat_spec in H. discriminate. Qed.
Lemma tower_file_is m : name_to_filename (tower_name m) true = tower_name m ++ lit ".glif".
Proof.
  rewrite name_to_filename_stem. f_equal. unfold tower_name. induction (S m) as [|k IH]; [reflexivity|].
  change (stem (repeat 97%N (S k))) with (97%N :: stem (repeat 97%N k)). rewrite IH. reflexivity.
Qed.
Lemma tower_found m : m <= n -> font (tower_file m) = Some (tower_doc m).
Proof.
  intros H. unfold tower. assert (In m (seq 0 (S n))) as I by (apply in_seq; lia). clear H. induction (seq 0 (S n)) as [|j l IH]; [destruct I|].
  cbn [map file_in]. match goal with |- context [list_eq_dec ?d ?a ?b] => destruct (list_eq_dec d a b) as [E|E] end.
  - apply (f_equal (@hd str [])) in E. cbn [hd tower_file] in E. apply app_inv_tail, tower_name_inj in E as ->. reflexivity.
  - apply IH. destruct I as [<-|I]; [now destruct E|assumption].
Qed.
Lemma tower_read ped m : exists g : glif PD PL, read_element L pd0 P ped (tower_doc m) = Ok g /\ cs_uniques (g_components g) = [] /\
  map (fun c => component_set_file_name c (tower_file m)) (cs_vec (g_components g)) = tower_parts m.
Proof.
  assert (forall j k, component_set_file_name (mkComponent (tower_name j) None (c_matrix (component_new L)) None) (tower_file k) = tower_part j) as F.
  { intros j k. unfold component_set_file_name, tower_part. cbn [c_base c_matrix c_identifier]. f_equal. f_equal.
    unfold tower_file at 1. rewrite <- tower_file_is. unfold path_set_file_name.
    assert (path_file_name [name_to_filename (tower_name k) true] = Some (name_to_filename (tower_name k) true)) as E by (apply file_name_some; exists []; split; [reflexivity|apply glif_normal]).
    change (path_push (match path_file_name [name_to_filename (tower_name k) true] with Some _ => [] | None => [name_to_filename (tower_name k) true] end) (path_of (name_to_filename (tower_name j) true)) = tower_file j).
    rewrite E, push_glif by apply tower_plain. cbn [app]. rewrite tower_file_is. reflexivity. }
  destruct m as [|m].
  - eexists. split; [reflexivity|]. split; reflexivity.
  - eexists. split; [reflexivity|]. split; [reflexivity|]. cbn [g_components cs_vec map fst tower_parts]. f_equal; [|f_equal]; apply F.
Qed.
Lemma tower_load m : m <= n -> exists c, load (tower_part m) = Ok c /\ parts c = tower_parts m.
Proof.
  intros H. destruct (tower_read pedantry_default m) as (g & E & _ & F). unfold to_component. change (c_filename (tower_part m)) with (Some (tower_file m)). cbn [ok_or bind]. rewrite (tower_found m H).
  cbn [ok_or bind]. rewrite E. cbn [bind]. eexists. split; [reflexivity|]. exact F.
Qed.
Lemma tower_tree root m : m <= n -> forall f u c, m < f -> (forall j, j < m -> ~ In (tower_name j) u) -> parts c = tower_parts m ->
  exists t, tree f root u c = Some (Ok (t, u)) /\ S (nodes t) = 2 ^ S m.
Proof.
  induction m as [|m IH]; intros Hm f u c Hf Hu Hc; (destruct f as [|f]; [lia|]); cbn [build_component_tree]; change (cs_vec (g_components (cp_glif c))) with (parts c); rewrite Hc; cbn [tower_parts].
  - eexists. split; reflexivity.
  - destruct (tower_load m) as (c1 & E1 & P1); [lia|]. assert (~ In (tower_name m) u) as N by (apply Hu; lia).
    destruct (IH ltac:(lia) f (tower_name m :: u) c1) as (t & Et & Nt); [lia| |assumption|].
    { intros j Hj [E|I]; [apply tower_name_inj in E; lia|]. apply (Hu j); [lia|assumption]. }
    cbn [build_children]. change (c_base (tower_part m)) with (tower_name m). destruct (set_mem_spec (tower_name m) u) as [|_]; [contradiction|].
    rewrite E1, Et, (set_remove_cons _ _ N). destruct (set_mem_spec (tower_name m) u) as [|_]; [contradiction|]. rewrite Et, (set_remove_cons _ _ N).
    eexists. split; [reflexivity|]. cbn [nodes map list_sum fold_right]. rewrite (Nat.pow_succ_r' 2 (S m)). unfold list_sum. cbn [fold_right]. lia.
Qed.
Lemma tower_forest ped : exists g ts, read_from_filename L pd0 P element font (@Some element) ped (tower_file n) = Ok g /\ cs_uniques (g_components g) = [] /\
  build_forest L pd0 P font (@Some element) (S n) (g_components g) = Some (Ok ts) /\ nodes_of ts + 2 = 2 ^ S n.
Proof.
  destruct (tower_read ped n) as (g & E & U & F). unfold read_from_filename. rewrite (tower_found n) by lia. cbn [ok_or bind]. rewrite E. cbn [bind].
  eexists. assert (exists ts, forest_loop (S n) (cs_root (g_components g)) [] (tower_parts n) = Some (Ok ts) /\ nodes_of ts + 2 = 2 ^ S n) as (ts & Ets & N).
  { destruct n as [|k] eqn:En; [exists []; split; reflexivity|]. cbn [tower_parts build_forest_loop]. rewrite <- En in *.
    destruct (tower_load k) as (c & Ec & Pc); [lia|]. destruct (tower_tree (cs_root (g_components g)) k ltac:(lia) (S n) [] c ltac:(lia)) as (t & Et & Nt); [easy|assumption|].
    rewrite Ec, Et, Et. eexists. split; [reflexivity|]. unfold nodes_of. rewrite En, (Nat.pow_succ_r' 2 (S k)). unfold list_sum. cbn [map fold_right]. lia. }
  exists ts. split; [reflexivity|]. cbn [g_components cs_uniques]. split; [exact U|]. split; [|exact N]. unfold build_forest. cbn [g_components cs_root cs_uniques cs_vec]. rewrite U, F. exact Ets.
Qed.
End Tower.
