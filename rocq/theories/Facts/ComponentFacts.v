(** Facts about resolving and flattening components. *)
Require Import Coq.Strings.String Coq.Lists.List Coq.NArith.NArith Coq.ZArith.ZArith Coq.Bool.Bool Coq.Arith.Arith Lia
  Coq.Relations.Relation_Operators Coq.Sorting.Permutation.
Require Import Verif.Model.Base Verif.Model.Text Verif.Model.Float Verif.Model.Num
  Verif.Model.Point Verif.Model.Contour Verif.Model.Create Verif.Model.Names Verif.Model.Pedantry Verif.Model.Color Verif.Model.Xml
  Verif.Model.Parts Verif.Model.Read Verif.Model.Component Verif.Spec.ComponentSpec Verif.Spec.GlyphSpec
  Verif.Facts.NamesFacts Verif.Facts.PathFacts Verif.Facts.XmlFacts Verif.Facts.CreateFacts Verif.Facts.GlyphFacts.
Import ListNotations.

Lemma set_mem_spec s u : reflect (In s u) (set_mem s u).
Proof.
  unfold set_mem. destruct (existsb (str_eqb s) u) eqn:E; constructor.
  - apply existsb_exists in E as (x & Hx & E). apply str_eqb_eq in E. now subst.
  - intros H. assert (existsb (str_eqb s) u = true); [|congruence]. apply existsb_exists. exists s. split; [assumption|apply str_eqb_refl].
Qed.
Lemma set_remove_cons s u : ~ In s u -> set_remove s (s :: u) = u.
Proof.
  intros H. unfold set_remove. cbn [filter]. rewrite str_eqb_refl. cbn [negb]. induction u as [|x u IH]; [reflexivity|]. cbn [filter].
  destruct (str_eqb_spec s x) as [->|]; [exfalso; apply H; now left|]. cbn [negb]. f_equal. apply IH. intros Hi; apply H; now right.
Qed.

Section Resolve.
Context (L : numlib) {PD PL : Type} (pd0 : PD) (P : plistlib PL).
Context {T : Type} (files : path -> option T) (parse : T -> option element).
Notation load := (to_component L pd0 P files parse).
Notation tree := (build_component_tree L pd0 P files parse).
Notation children := (build_children L pd0 P files parse).
Notation forest_loop := (build_forest_loop L pd0 P files parse).
Notation component := (component PD PL).
Notation ctree := (ctree PD PL).
Notation resolves := (resolves load).
Notation includes := (includes load).
Notation reaches := (reaches load).
Notation includes_deep := (includes_deep load).
Notation plain_below := (plain_below load).
Implicit Types (r : glifcomponent) (c : component) (t : ctree) (u : list str).

Lemma tree_eq n root u c : tree (S n) root u c =
  match children (tree n root) root (g_name (cp_glif c)) u (parts c) with
  | Some (Ok (ts, u')) => Some (Ok (CNode c ts, u'))
  | Some (Err e) => Some (Err e)
  | Some Panic => Some Panic
  | None => None
  end.
Proof. reflexivity. Qed.

(** More fuel does not change an answer. *)
Lemma children_mono (f g : list str -> component -> option (res (ctree * list str))) root from :
  (forall u c x, f u c = Some x -> g u c = Some x) ->
  forall rs u x, children f root from u rs = Some x -> children g root from u rs = Some x.
Proof.
  intros H. induction rs as [|r rs IH]; cbn [build_children]; intros u x; [auto|].
  destruct (set_mem (c_base r) u); [auto|]. destruct (load r) as [c|e|]; auto.
  destruct (f (c_base r :: u) c) as [y|] eqn:E; [|discriminate]. rewrite (H _ _ _ E).
  destruct y as [[t u']|e|]; auto.
  destruct (children f root from (set_remove (c_base r) u') rs) as [z|] eqn:Ez; [|discriminate]. now rewrite (IH _ _ Ez).
Qed.
Lemma tree_mono root n : forall u c x, tree n root u c = Some x -> forall m, n <= m -> tree m root u c = Some x.
Proof.
  induction n as [|n IH]; intros u c x H m Hm; [discriminate|]. destruct m as [|m]; [lia|].
  rewrite tree_eq in *. destruct (children (tree n root) root _ u (parts c)) as [y|] eqn:E; [|discriminate].
  rewrite (children_mono _ (tree m root) _ _ (fun u c x H => IH u c x H m ltac:(lia)) _ _ _ E). assumption.
Qed.
Lemma forest_mono n root : forall rs u x, forest_loop n root u rs = Some x -> forall m, n <= m -> forest_loop m root u rs = Some x.
Proof.
  induction rs as [|r rs IH]; cbn [build_forest_loop]; intros u x H m Hm; [assumption|].
  destruct (load r) as [c|e|]; auto. destruct (tree n root u c) as [y|] eqn:E; [|discriminate]. rewrite (tree_mono _ _ _ _ _ E m Hm).
  destruct y as [[t u']|e|]; auto. destruct (forest_loop n root u' rs) as [z|] eqn:Ez; [|discriminate]. now rewrite (IH _ _ Ez m Hm).
Qed.

(** The set of names is restored, and the tree is the unfolding. *)
Lemma children_ok (f : list str -> component -> option (res (ctree * list str))) root from :
  (forall u c t u', f u c = Some (Ok (t, u')) -> u' = u /\ exists ts, t = CNode c ts /\ Forall2 resolves (parts c) ts) ->
  forall rs u ts u', children f root from u rs = Some (Ok (ts, u')) -> u' = u /\ Forall2 resolves rs ts.
Proof.
  intros H. induction rs as [|r rs IH]; cbn [build_children]; intros u ts u' E.
  - injection E as <- <-. split; [reflexivity|constructor].
  - destruct (set_mem_spec (c_base r) u) as [|Hn]; [discriminate|]. destruct (load r) as [c|e|] eqn:El; try discriminate.
    destruct (f (c_base r :: u) c) as [[[t u1]|e|]|] eqn:Ef; try discriminate.
    apply H in Ef as (-> & ts0 & -> & H0). rewrite (set_remove_cons _ _ Hn) in E.
    destruct (children f root from u rs) as [[[ts1 u2]|e|]|] eqn:Ec; try discriminate.
    injection E as <- <-. apply IH in Ec as (-> & H1). split; [reflexivity|]. constructor; [|assumption]. now constructor.
Qed.
Lemma tree_ok root n : forall u c t u', tree n root u c = Some (Ok (t, u')) ->
  u' = u /\ exists ts, t = CNode c ts /\ Forall2 resolves (parts c) ts.
Proof.
  induction n as [|n IH]; intros u c t u' H; [discriminate|]. rewrite tree_eq in H.
  destruct (children (tree n root) root _ u (parts c)) as [[[ts u1]|e|]|] eqn:E; try discriminate.
  injection H as <- <-. apply (children_ok _ _ _ (IH)) in E as (-> & H). split; [reflexivity|]. now exists ts.
Qed.
Lemma forest_ok n root : forall rs u ts, forest_loop n root u rs = Some (Ok ts) -> Forall2 resolves rs ts.
Proof.
  induction rs as [|r rs IH]; cbn [build_forest_loop]; intros u ts H.
  - injection H as <-. constructor.
  - destruct (load r) as [c|e|] eqn:El; try discriminate. destruct (tree n root u c) as [[[t u']|e|]|] eqn:E; try discriminate.
    destruct (forest_loop n root u' rs) as [[ts'|e|]|] eqn:Ef; try discriminate. injection H as <-.
    apply tree_ok in E as (-> & ts0 & -> & H0). constructor; [now constructor|]. eapply IH, Ef.
Qed.

(** Induction over unfolding trees. *)
Fixpoint tsize t : nat := let 'CNode _ ts := t in S (list_sum (map tsize ts)).
Lemma tsize_in t ts : In t ts -> tsize t <= list_sum (map tsize ts).
Proof. induction ts as [|x ts IH]; intros []; cbn [map list_sum fold_right]; unfold list_sum in *; [subst; lia|]. specialize (IH H). lia. Qed.

Lemma resolves_inv r t : resolves r t -> exists c ts, t = CNode c ts /\ load r = Ok c /\ Forall2 resolves (parts c) ts.
Proof. intros H. inversion H; subst. eauto. Qed.

(** What is loaded depends on the file name only, up to name and matrix. *)
Lemma load_parts r r' c c' : c_filename r = c_filename r' -> load r = Ok c -> load r' = Ok c' -> parts c = parts c'.
Proof.
  unfold to_component. intros <-. destruct (c_filename r) as [fn|]; cbn [ok_or bind]; [|discriminate].
  destruct (files fn) as [x|]; cbn [ok_or bind]; [|discriminate]. destruct (parse x) as [e|]; cbn [ok_or bind]; [|discriminate].
  destruct (read_element L pd0 P pedantry_default e) as [g| |]; cbn [bind]; try discriminate.
  intros H H'. injection H as <-. injection H' as <-. reflexivity.
Qed.
Lemma resolves_fun n : forall r r' t t', tsize t <= n -> c_filename r = c_filename r' -> resolves r t -> resolves r' t' ->
  cchildren t = cchildren t' .
Proof.
  induction n as [|n IH]; intros r r' t t' Hn E H H'.
  - destruct t; cbn in Hn; lia.
  - apply resolves_inv in H as (c & ts & -> & Hl & Hc). apply resolves_inv in H' as (c' & ts' & -> & Hl' & Hc'). cbn [cchildren].
    rewrite <- (load_parts _ _ _ _ E Hl Hl') in Hc'. cbn [tsize] in Hn. clear Hl Hl' E c'.
    revert ts' Hc'. induction Hc as [|x t xs ts Hx Hc IHc]; intros ts' Hc'; inversion Hc'; subst; [reflexivity|].
    cbn [map list_sum fold_right] in Hn. unfold list_sum in *. f_equal; [|apply IHc; [lia|assumption]].
    assert (cchildren t = cchildren y) as E by (eapply (IH x x); [lia|reflexivity|eassumption|eassumption]).
    apply resolves_inv in Hx as (c1 & ts1 & -> & Hl1 & _).
    match goal with H : resolves x y |- _ => apply resolves_inv in H as (c2 & ts2 & -> & Hl2 & _) end.
    cbn [cchildren] in E. subst. f_equal. congruence.
Qed.
Lemma tsize_children t t' : cchildren t = cchildren t' -> tsize t = tsize t'.
Proof. destruct t, t'. cbn. now intros <-. Qed.

Lemma resolves_includes r t r' : resolves r t -> includes r r' -> exists t', resolves r' t' /\ tsize t' < tsize t.
Proof.
  intros H (c & Hl & Hi). apply resolves_inv in H as (c' & ts & -> & Hl' & Hc). rewrite Hl in Hl'. injection Hl' as <-.
  cbn [tsize]. clear Hl. induction Hc as [|x t xs ts Hx Hc IH]; [destruct Hi|]. cbn [map list_sum fold_right]. unfold list_sum in *. destruct Hi as [->|Hi].
  - exists t. split; [assumption|lia].
  - destruct (IH Hi) as (t' & H1 & H2). exists t'. split; [assumption|lia].
Qed.
Lemma resolves_reaches r t r' : resolves r t -> reaches r r' -> exists t', resolves r' t' /\ tsize t' <= tsize t.
Proof.
  intros H Hr. revert t H. induction Hr as [|x y z Hxy _ IH]; intros t H; [eauto|].
  destruct (resolves_includes _ _ _ H Hxy) as (t1 & H1 & S1). destruct (IH _ H1) as (t2 & H2 & S2). exists t2. split; [assumption|lia].
Qed.
Lemma includes_deep_reaches r r' : includes_deep r r' <-> exists x, includes r x /\ reaches x r'.
Proof.
  split.
  - intros H. induction H as [x y H|x y z Hxy _ (w & H1 & H2)].
    + exists y. split; [assumption|constructor].
    + exists y. split; [assumption|]. now apply rt1n_trans with w.
  - intros (x & H1 & H2). revert r H1. induction H2 as [x|x y z Hxy _ IH]; intros r H1; [now constructor|].
    apply t1n_trans with x; [assumption|]. now apply IH.
Qed.
Lemma resolves_acyclic r t r' : resolves r t -> includes_deep r r' -> c_filename r = c_filename r' -> False.
Proof.
  intros H (x & H1 & H2)%includes_deep_reaches E. destruct (resolves_includes _ _ _ H H1) as (t1 & R1 & S1).
  destruct (resolves_reaches _ _ _ R1 H2) as (t2 & R2 & S2).
  pose proof (tsize_children _ _ (resolves_fun _ _ _ _ _ (le_n _) E H R2)). lia.
Qed.

(** Below the top level the file is determined by the name. *)
Definition in_dir (d : path) r : Prop := c_filename r = Some (path_set_file_name d (name_to_filename (c_base r) true)).
Lemma load_in_dir r c d : load r = Ok c -> c_filename r = Some d -> forall r', In r' (parts c) -> in_dir d r'.
Proof.
  unfold to_component. intros H E. rewrite E in H. cbn [ok_or bind] in H.
  destruct (files d) as [x|]; cbn [ok_or bind] in H; [|discriminate]. destruct (parse x) as [e|]; cbn [ok_or bind] in H; [|discriminate].
  destruct (read_element L pd0 P pedantry_default e) as [g| |]; cbn [bind] in H; try discriminate. injection H as <-.
  unfold parts. cbn [cp_glif g_components cs_vec]. intros r' Hi. apply in_map_iff in Hi as (x' & <- & _). reflexivity.
Qed.
Lemma in_dir_sub d r c r' : plain_name (c_base r) -> in_dir d r -> load r = Ok c -> In r' (parts c) -> in_dir d r'.
Proof.
  intros Hp Hd Hl Hi. pose proof (load_in_dir _ _ _ Hl Hd _ Hi) as H. unfold in_dir in *. now rewrite set_file_name_twice in H.
Qed.
Lemma load_has_file r c : load r = Ok c -> exists d, c_filename r = Some d.
Proof. unfold to_component. destruct (c_filename r) as [d|]; [eauto|discriminate]. Qed.
Lemma in_dir_reaches d r r' : (forall x, reaches r x -> plain_name (c_base x)) -> in_dir d r -> reaches r r' -> in_dir d r'.
Proof.
  intros Hp H Hr. induction Hr as [|x y z (c & Hl & Hi) _ IH]; [assumption|]. apply IH.
  - intros w Hw. apply Hp. apply rt1n_trans with y; [now exists c|assumption].
  - eapply in_dir_sub; [|eassumption..]. apply Hp. constructor.
Qed.
Lemma below_in_dir r d r' : (forall x, includes_deep r x -> plain_name (c_base x)) -> c_filename r = Some d -> includes_deep r r' -> in_dir d r'.
Proof.
  intros Hp E (x & (c & Hl & Hi) & H2)%includes_deep_reaches. eapply in_dir_reaches; [| |eassumption].
  - intros w Hw. apply Hp. apply includes_deep_reaches. exists x. split; [now exists c|assumption].
  - eapply load_in_dir; eassumption.
Qed.

(** An unfolding is found. *)
Lemma tree_finds root d n : forall c ts u, Forall2 resolves (parts c) ts -> list_sum (map tsize ts) <= n ->
  (forall r, In r (parts c) -> in_dir d r) ->
  (forall r r', In r (parts c) -> reaches r r' -> plain_name (c_base r')) ->
  (forall r r', In r (parts c) -> reaches r r' -> ~ In (c_base r') u) ->
  exists m, tree m root u c = Some (Ok (CNode c ts, u)).
Proof.
  induction n as [|n IH]; intros c ts u Hc Hn Hd Hp Hu.
  - exists 1. rewrite tree_eq. destruct Hc as [|x t xs ts Hx Hc]; [reflexivity|]. destruct t. cbn in Hn. lia.
  - cut (exists m, children (tree m root) root (g_name (cp_glif c)) u (parts c) = Some (Ok (ts, u))).
    { intros (m & E). exists (S m). rewrite tree_eq, E. reflexivity. }
    set (from := g_name (cp_glif c)). clearbody from. revert Hd Hp Hu Hn. induction Hc as [|r t rs ts Hr Hc IHc]; intros Hd Hp Hu Hn.
    + exists 0. reflexivity.
    + destruct IHc as (m1 & E1).
      * intros x Hx. apply Hd. now right.
      * intros x x' Hx. apply Hp. now right.
      * intros x x' Hx. apply Hu. now right.
      * cbn [map list_sum fold_right] in Hn. unfold list_sum in *. lia.
      * pose proof Hr as Hr'. apply resolves_inv in Hr' as (c1 & ts1 & -> & Hl & Hc1).
        assert (exists m, tree m root (c_base r :: u) c1 = Some (Ok (CNode c1 ts1, c_base r :: u))) as (m2 & E2).
        { apply IH.
          - assumption.
          - cbn [map list_sum fold_right tsize] in Hn. unfold list_sum in *. lia.
          - intros x Hx. eapply in_dir_sub; [apply (Hp r); [now left|constructor]|apply Hd; now left|eassumption|assumption].
          - intros x x' Hx Hreach. apply (Hp r); [now left|]. apply rt1n_trans with x; [now exists c1|assumption].
          - intros x x' Hx Hreach [E|Hi].
            + apply (resolves_acyclic _ _ x' Hr).
              * apply includes_deep_reaches. exists x. split; [|assumption]. now exists c1.
              * assert (in_dir d r) as D1 by (apply Hd; now left).
                assert (plain_name (c_base r)) as P1 by (apply (Hp r); [now left|constructor]).
                assert (in_dir d x') as D2.
                { eapply in_dir_reaches; [|eapply in_dir_sub; eassumption|eassumption].
                  intros w Hw. apply (Hp r); [now left|]. apply rt1n_trans with x; [now exists c1|assumption]. }
                unfold in_dir in *. now rewrite D1, D2, E.
            + apply (Hu r x'); [now left| |assumption]. apply rt1n_trans with x; [now exists c1|assumption]. }
        exists (Nat.max m1 m2). cbn [build_children].
        destruct (set_mem_spec (c_base r) u) as [Hi|Hni]; [exfalso; apply (Hu r r); [now left|constructor|assumption]|].
        rewrite Hl. rewrite (tree_mono _ _ _ _ _ E2 (Nat.max m1 m2)) by lia. rewrite (set_remove_cons _ _ Hni).
        rewrite (children_mono _ (tree (Nat.max m1 m2) root) _ _ (fun u c x H => tree_mono _ _ u c x H _ (Nat.le_max_l m1 m2)) _ _ _ E1). reflexivity.
Qed.
Lemma forest_finds root : forall rs ts, plain_below rs -> Forall2 resolves rs ts -> exists m, forest_loop m root [] rs = Some (Ok ts).
Proof.
  intros rs ts Hp H. revert Hp. induction H as [|r t rs ts Hr _ IH]; intros Hp.
  - exists 0. reflexivity.
  - destruct IH as (m1 & E1); [intros r0 x H0; apply Hp; now right|].
    apply resolves_inv in Hr as (c & ts1 & -> & Hl & Hc). destruct (load_has_file _ _ Hl) as (d & Hd).
    destruct (tree_finds root d _ c ts1 [] Hc (le_n _)) as (m2 & E2).
    + intros x Hx. eapply load_in_dir; eassumption.
    + intros x x' Hx Hx'. apply (Hp r); [now left|]. apply includes_deep_reaches. exists x. split; [now exists c|assumption].
    + intros x x' _ _ [].
    + exists (Nat.max m1 m2). cbn [build_forest_loop]. rewrite Hl. rewrite (tree_mono _ _ _ _ _ E2 (Nat.max m1 m2)) by lia.
      rewrite (forest_mono _ _ _ _ _ E1 (Nat.max m1 m2)) by lia. reflexivity.
Qed.

(** Termination. *)
Definition names_within (bases : list str) : Prop :=
  forall r c r', load r = Ok c -> In r' (parts c) -> In (c_base r') bases.
Definition room (bases u : list str) : nat := List.length (filter (fun b => negb (set_mem b u)) bases).
Lemma room_less bases u b : In b bases -> ~ In b u -> room bases (b :: u) < room bases u.
Proof.
  unfold room. intros Hb Hu.
  assert (forall l, List.length (filter (fun x => negb (set_mem x (b :: u))) l) <= List.length (filter (fun x => negb (set_mem x u)) l)) as Hle.
  { induction l as [|x l IH]; [reflexivity|]. cbn [filter].
    change (set_mem x (b :: u)) with (str_eqb x b || set_mem x u). destruct (str_eqb x b); cbn [orb negb]; destruct (set_mem x u); cbn [negb List.length]; lia. }
  induction bases as [|x l IH]; [destruct Hb|]. cbn [filter]. change (set_mem x (b :: u)) with (str_eqb x b || set_mem x u).
  destruct Hb as [->|Hb].
  - rewrite str_eqb_refl. cbn [orb negb]. destruct (set_mem_spec b u); [contradiction|]. cbn [negb List.length]. specialize (Hle l). lia.
  - specialize (IH Hb). destruct (str_eqb x b); cbn [orb negb]; destruct (set_mem x u); cbn [negb List.length]; lia.
Qed.
Lemma tree_ends bases root : names_within bases -> forall n u c, room bases u < n ->
  (forall r, In r (parts c) -> In (c_base r) bases) -> tree n root u c <> None.
Proof.
  intros HB. induction n as [|n IH]; intros u c Hn Hc; [lia|]. rewrite tree_eq.
  cut (children (tree n root) root (g_name (cp_glif c)) u (parts c) <> None).
  { destruct (children _ _ _ _ _) as [[[? ?]| |]|]; congruence. }
  set (from := g_name (cp_glif c)). clearbody from. revert Hc. generalize (parts c) as rs.
  induction rs as [|r rs IHr]; intros Hc; cbn [build_children]; [discriminate|].
  destruct (set_mem_spec (c_base r) u) as [|Hni]; [discriminate|]. destruct (load r) as [c1|e|] eqn:El; try discriminate.
  pose proof (room_less bases u (c_base r) (Hc r (or_introl eq_refl)) Hni).
  destruct (tree n root (c_base r :: u) c1) as [[[t u']|e|]|] eqn:E; try discriminate.
  - apply tree_ok in E as (-> & _). rewrite (set_remove_cons _ _ Hni).
    assert (children (tree n root) root from u rs <> None) as Hx by (apply IHr; intros x Hx; apply Hc; now right).
    destruct (children (tree n root) root from u rs) as [[[? ?]| |]|]; congruence.
  - exfalso. apply (IH (c_base r :: u) c1); [lia| |assumption]. intros x Hx. eapply HB; eassumption.
Qed.
Lemma forest_ends bases root n : names_within bases -> List.length bases < n -> forall rs u, forest_loop n root u rs <> None.
Proof.
  intros HB Hn. induction rs as [|r rs IH]; intros u; cbn [build_forest_loop]; [discriminate|]. destruct (load r) as [c|e|] eqn:El; try discriminate.
  assert (room bases u <= List.length bases) by (unfold room; clear; induction bases as [|b l IH]; [reflexivity|]; cbn [filter]; destruct (negb _); cbn [List.length]; lia).
  assert (tree n root u c <> None) as Ht by (apply (tree_ends bases); [assumption|lia|]; intros x Hx; eapply HB; eassumption).
  destruct (tree n root u c) as [[[t u']|e|]|] eqn:E; try discriminate; [|congruence].
  apply tree_ok in E as (-> & _). specialize (IH u). destruct (forest_loop n root u rs) as [[?| |]|]; congruence.
Qed.
Lemma finite_names texts : (forall p x, files p = Some x -> In x texts) -> exists bases, names_within bases.
Proof.
  intros H.
  exists (flat_map (fun x => match parse x with
      | Some e => match read_element L pd0 P pedantry_default e with Ok g => map c_base (cs_vec (g_components g)) | _ => [] end
      | None => [] end) texts).
  intros r c r' Hl Hi. unfold to_component in Hl. destruct (c_filename r) as [fn|]; cbn [ok_or bind] in Hl; [|discriminate].
  destruct (files fn) as [x|] eqn:Ef; cbn [ok_or bind] in Hl; [|discriminate]. destruct (parse x) as [e|] eqn:Ep; cbn [ok_or bind] in Hl; [|discriminate].
  destruct (read_element L pd0 P pedantry_default e) as [g| |] eqn:Er; cbn [bind] in Hl; try discriminate. injection Hl as <-.
  apply in_flat_map. exists x. split; [now apply (H fn)|]. rewrite Ep, Er. unfold parts in Hi. cbn [cp_glif g_components cs_vec] in Hi.
  apply in_map_iff in Hi as (y & <- & Hy). cbn [component_set_file_name c_base]. now apply in_map.
Qed.

(** What an error means. *)
Definition bad_below (u : list str) root e (rs : list glifcomponent) : Prop :=
  exists r0 r, In r0 rs /\ reaches r0 r /\
    (load r = Err e \/
     exists from, e = ECyclical (c_base r) from root /\
       (In (c_base r) u \/ exists r1, reaches r0 r1 /\ includes_deep r1 r /\ c_base r1 = c_base r)).
Lemma bad_below_in u root e rs rs' : (forall x, In x rs -> In x rs') -> bad_below u root e rs -> bad_below u root e rs'.
Proof. intros H (r0 & r & H0 & H1). exists r0, r. split; [now apply H|assumption]. Qed.
Lemma tree_err root : forall n u c e, tree n root u c = Some (Err e) -> bad_below u root e (parts c).
Proof.
  induction n as [|n IH]; intros u c e H; [discriminate|]. rewrite tree_eq in H.
  destruct (children (tree n root) root (g_name (cp_glif c)) u (parts c)) as [[[? ?]|e'|]|] eqn:E; try discriminate.
  injection H as ->. revert E. set (from := g_name (cp_glif c)). clearbody from. generalize (parts c) as rs.
  induction rs as [|r rs IHr]; cbn [build_children]; intros E; [discriminate|].
  destruct (set_mem_spec (c_base r) u) as [Hi|Hni].
  - injection E as <-. exists r, r. split; [now left|]. split; [constructor|]. right. exists from. auto.
  - destruct (load r) as [c1|e1|] eqn:El; try discriminate.
    + destruct (tree n root (c_base r :: u) c1) as [[[t u']|e1|]|] eqn:Et; try discriminate.
      * apply tree_ok in Et as (-> & _). rewrite (set_remove_cons _ _ Hni) in E.
        destruct (children (tree n root) root from u rs) as [[[? ?]|e'|]|] eqn:Ec; try discriminate. injection E as ->.
        eapply bad_below_in; [|now apply IHr]. intros x Hx. now right.
      * injection E as ->. apply IH in Et as (r0 & r2 & H0 & H1 & H2).
        assert (includes r r0) as I0 by now exists c1.
        exists r, r2. split; [now left|]. split; [now apply rt1n_trans with r0|]. destruct H2 as [H2|(from' & -> & H2)]; [now left|].
        right. exists from'. split; [reflexivity|]. destruct H2 as [[H2|H2]|(r1 & R1 & R2 & R3)].
        -- right. exists r. split; [constructor|]. split; [|assumption]. apply includes_deep_reaches. now exists r0.
        -- now left.
        -- right. exists r1. split; [now apply rt1n_trans with r0|]. auto.
    + injection E as ->. exists r, r. split; [now left|]. split; [constructor|]. now left.
Qed.
(** In a forest both references are below the top level. *)
Lemma forest_err root n : forall rs e, forest_loop n root [] rs = Some (Err e) ->
  (exists r0 r, In r0 rs /\ reaches r0 r /\ load r = Err e) \/
  (exists r0 r1 r from, In r0 rs /\ includes_deep r0 r1 /\ includes_deep r1 r /\ c_base r1 = c_base r /\ e = ECyclical (c_base r) from root).
Proof.
  induction rs as [|r rs IH]; cbn [build_forest_loop]; intros e H; [discriminate|]. destruct (load r) as [c|e1|] eqn:El; try discriminate.
  - destruct (tree n root [] c) as [[[t u']|e1|]|] eqn:E; try discriminate.
    + apply tree_ok in E as (-> & _). destruct (forest_loop n root [] rs) as [[?|e1|]|]; try discriminate. injection H as ->.
      destruct (IH _ eq_refl) as [(r0 & r1 & H0 & H1)|(r0 & r1 & r2 & from & H0 & H1)]; [left|right].
      * exists r0, r1. split; [now right|assumption].
      * exists r0, r1, r2, from. split; [now right|assumption].
    + injection H as ->. apply tree_err in E as (r0 & r2 & H0 & H1 & H2).
      assert (includes r r0) as I0 by now exists c. destruct H2 as [H2|(from & -> & [[]|(r1 & R1 & R2 & R3)])].
      * left. exists r, r2. split; [now left|]. split; [now apply rt1n_trans with r0|assumption].
      * right. exists r, r1, r2, from. split; [now left|].
        assert (includes_deep r r1) as D1 by (apply includes_deep_reaches; now exists r0). auto.
  - injection H as ->. left. exists r, r. split; [now left|]. split; [constructor|assumption].
Qed.
(** So if the names are plain they are the same glyph. *)
Lemma below_same rs r0 r1 r : plain_below rs -> In r0 rs -> includes_deep r0 r1 -> includes_deep r1 r -> c_base r1 = c_base r -> same_glyph r1 r.
Proof.
  intros Hp Hi D1 R2 R3. split; [assumption|].
  assert (exists d, c_filename r0 = Some d) as (d & Hd).
  { apply includes_deep_reaches in D1 as (x & (c & Hl & _) & _). eapply load_has_file, Hl. }
  pose proof (below_in_dir _ _ _ (fun x => Hp _ x Hi) Hd D1) as B1.
  assert (includes_deep r0 r) as D2.
  { apply includes_deep_reaches in D1 as (x & X1 & X2). apply includes_deep_reaches in R2 as (y & Y1 & Y2). apply includes_deep_reaches. exists x. split; [assumption|].
    clear -X2 Y1 Y2. induction X2 as [z|z w v Hzw _ IH]; [now apply rt1n_trans with y|]. apply rt1n_trans with w; [exact Hzw|now apply IH]. }
  pose proof (below_in_dir _ _ _ (fun x => Hp _ x Hi) Hd D2) as B2.
  unfold in_dir in *. now rewrite B1, B2, R3.
Qed.
Lemma tree_panic root : forall n u c, tree n root u c = Some Panic -> exists r0 r, In r0 (parts c) /\ reaches r0 r /\ load r = Panic.
Proof.
  induction n as [|n IH]; intros u c H; [discriminate|]. rewrite tree_eq in H.
  destruct (children (tree n root) root (g_name (cp_glif c)) u (parts c)) as [[[? ?]|e'|]|] eqn:E; try discriminate.
  revert E. set (from := g_name (cp_glif c)). clearbody from. generalize (parts c) as rs.
  induction rs as [|r rs IHr]; cbn [build_children]; intros E; [discriminate|].
  destruct (set_mem_spec (c_base r) u) as [Hi|Hni]; [discriminate|].
  destruct (load r) as [c1|e1|] eqn:El; try discriminate.
  - destruct (tree n root (c_base r :: u) c1) as [[[t u']|e1|]|] eqn:Et; try discriminate.
    + apply tree_ok in Et as (-> & _). rewrite (set_remove_cons _ _ Hni) in E.
      destruct (children (tree n root) root from u rs) as [[[? ?]|e'|]|] eqn:Ec; try discriminate.
      destruct (IHr eq_refl) as (r0 & r1 & H0 & H1). exists r0, r1. split; [now right|assumption].
    + apply IH in Et as (r0 & r2 & H0 & H1 & H2). exists r, r2. split; [now left|]. split; [|assumption].
      apply rt1n_trans with r0; [now exists c1|assumption].
  - exists r, r. split; [now left|]. split; [constructor|assumption].
Qed.
Lemma forest_panic root n : forall rs, forest_loop n root [] rs = Some Panic -> exists r0 r, In r0 rs /\ reaches r0 r /\ load r = Panic.
Proof.
  induction rs as [|r rs IH]; cbn [build_forest_loop]; intros H; [discriminate|]. destruct (load r) as [c|e1|] eqn:El; try discriminate.
  - destruct (tree n root [] c) as [[[t u']|e1|]|] eqn:E; try discriminate.
    + apply tree_ok in E as (-> & _). destruct (forest_loop n root [] rs) as [[?|e1|]|]; try discriminate.
      destruct (IH eq_refl) as (r0 & r1 & H0 & H1). exists r0, r1. split; [now right|assumption].
    + apply tree_panic in E as (r0 & r2 & H0 & H1 & H2). exists r, r2. split; [now left|]. split; [|assumption].
      apply rt1n_trans with r0; [now exists c|assumption].
  - exists r, r. split; [now left|]. split; [constructor|assumption].
Qed.

End Resolve.

(** Loading never reports a cycle. *)
Section NoCycle.
Context (L : numlib) {PD PL : Type} (pd0 : PD) (P : plistlib PL).
Definition acyc {A} (r : res A) : Prop := forall b f o, r <> Err (ECyclical b f o).
Lemma bind_acyc {A B} (r : res A) (k : A -> res B) : acyc r -> (forall a, r = Ok a -> acyc (k a)) -> acyc (bind r k).
Proof. unfold acyc. destruct r as [a|e|]; cbn; intros H1 H2 b f o; [now apply H2|intros E; injection E as ->; now apply (H1 b f o)|discriminate]. Qed.
Lemma ok_acyc {A} (a : A) : acyc (Ok a). Proof. intros b f o. discriminate. Qed.
Lemma mapM_acyc {A B} (g : A -> res B) l : (forall x, acyc (g x)) -> acyc (mapM g l).
Proof. intros H. induction l as [|x l IH]; cbn [mapM]; [apply ok_acyc|]. apply bind_acyc; [apply H|]. intros y _. apply bind_acyc; [assumption|]. intros; apply ok_acyc. Qed.
Ltac ac := repeat first [match goal with |- acyc (bind _ _) => apply bind_acyc; [|intros] end
  | match goal with |- acyc (ok_or ?o _) => destruct o; intros ? ? ?; discriminate end
  | apply ok_acyc | match goal with |- acyc (Err _) => intros ? ? ?; discriminate end].
Lemma color_acyc s : acyc (color_parse L s).
Proof. unfold color_parse, color_component. destruct (split_on 44 s) as [|a [|b [|c [|d l]]]]; ac. Qed.
Lemma read_color_acyc e : acyc (read_color L e).
Proof. unfold read_color. destruct (get e "color"); ac. apply color_acyc. Qed.
Lemma load_matrix_acyc e m : acyc (load_matrix L e m).
Proof. unfold load_matrix, load_member. ac; match goal with |- acyc (match ?o with Some _ => _ | None => _ end) => destruct o; ac end. Qed.
Lemma read_acyc ped e : acyc (read_element L pd0 P ped e).
Proof.
  rewrite read_element_by_kind. unfold read_by_kind. destruct (negb _); ac. destruct (negb _); ac.
  - destruct (hd_error _) as [av|]; ac. unfold read_advance. ac. destruct (parse_u64 _); ac. destruct (f32_read L _); ac. destruct (is_subnormal _); ac. destruct (negb _); ac.
  - apply mapM_acyc. intros x. unfold read_unicode. ac.
  - apply mapM_acyc. intros x. unfold read_anchor. ac. unfold anchor_from_glif. destruct (_ && _); ac.
  - apply mapM_acyc. intros x. unfold read_image. ac; [apply load_matrix_acyc|apply read_color_acyc].
  - apply mapM_acyc. intros x. unfold read_guideline. ac. apply read_color_acyc.
  - destruct (hd_error (named "outline" e)) as [oe|]; [|apply ok_acyc]. cbn [outline_by_kind]. ac.
    + apply mapM_acyc. intros x. apply mapM_acyc. intros y. unfold read_point. ac. destruct (ptype_is_valid _); ac.
    + apply mapM_acyc. intros x. unfold read_component. ac. apply load_matrix_acyc.
  - intros b f o. apply outline_panic.
Qed.
Lemma load_acyc {T} (files : path -> option T) (parse : T -> option element) r : acyc (to_component L pd0 P files parse r).
Proof. unfold to_component. ac. apply read_acyc. Qed.

(** No contour of a loaded glyph is empty. *)
Lemma read_contours_nonempty ped e g : read_element L pd0 P ped e = Ok g ->
  forall o, g_outline g = Some o -> forall c, In c o -> c <> [].
Proof.
  rewrite read_element_by_kind. unfold read_by_kind.
  repeat match goal with |- (if ?b then _ else _) = Ok g -> _ => destruct b; [discriminate|] | |- bind ?x _ = Ok g -> _ => destruct x eqn:?; cbn [bind]; try discriminate end.
  intros H. injection H as <-. cbn [g_outline]. intros o Ho c Hc.
  match goal with H : outline_of_glif L _ = Ok ?l |- _ => assert (o = l) as -> by (destruct (_ || _); congruence); unfold outline_of_glif in H; destruct (mapM _ _) in H; try discriminate; cbn [bind] in H; injection H as <- end.
  apply filter_In in Hc as [_ Hc]. now destruct c.
Qed.
Lemma load_contours_nonempty {T} (files : path -> option T) (parse : T -> option element) r c :
  to_component L pd0 P files parse r = Ok c -> forall k, In k (own_contours c) -> k <> [].
Proof.
  unfold to_component. repeat match goal with |- bind ?x _ = Ok c -> _ => destruct x eqn:?; cbn [bind]; try discriminate end.
  intros H. injection H as <-. unfold own_contours. cbn [cp_glif g_outline].
  match goal with H : read_element _ _ _ _ _ = Ok ?g |- _ => destruct (g_outline g) as [o|] eqn:E; [|intros ? []]; eapply read_contours_nonempty; eassumption end.
Qed.
End NoCycle.

(** Flattening. *)
Section Flatten.
Context {PD PL : Type}.
Notation component := (component PD PL).
Notation ctree := (ctree PD PL).
Implicit Types (c : list (point PD)) (o : list (list (point PD))) (b : bounds).

Definition moveM (ms : list affine) (p : point PD) : point PD := fold_left (fun p m => apply_matrix m p) ms p.
Lemma apply_points_fst ms i : forall c j b, fst (apply_points ms i j b c) = map (moveM ms) c.
Proof.
  induction c as [|p c IH]; intros j b; [reflexivity|]. cbn [apply_points map].
  specialize (IH (S j) (update_bounds ((i =? 0) && (j =? 0)) b p)).
  destruct (apply_points ms i (S j) (update_bounds ((i =? 0) && (j =? 0)) b p) c) as [c' b']. cbn [fst] in *. now rewrite IH.
Qed.
Lemma apply_contours_fst ms : forall o i b, fst (apply_contours ms i b o) = map (map (moveM ms)) o.
Proof.
  induction o as [|c o IH]; intros i b; [reflexivity|]. cbn [apply_contours map].
  pose proof (apply_points_fst ms i c 0 b) as E. destruct (apply_points ms i 0 b c) as [c' b']. cbn [fst] in E. subst.
  specialize (IH (S i) b'). destruct (apply_contours ms (S i) b' o) as [o' b'']. cbn [fst] in *. now rewrite IH.
Qed.
Lemma apply_component_fst (k : component) above b final :
  fst (apply_component_rect k above b final) = final ++ map (map (moveM (cp_matrix k :: above))) (own_contours k).
Proof.
  unfold apply_component_rect, own_contours. destruct (g_outline (cp_glif k)) as [o|]; [|cbn; now rewrite app_nil_r].
  pose proof (apply_contours_fst (cp_matrix k :: above) o 0 b) as E. destruct (apply_contours _ 0 b o) as [o' b']. cbn [fst] in *. now rewrite E.
Qed.
Definition place (x : list affine * list (point PD)) : list (point PD) := map (moveM (fst x)) (snd x).
Lemma map_place ms o : map place (map (pair ms) o) = map (map (moveM ms)) o.
Proof. rewrite map_map. reflexivity. Qed.
Lemma apply_back_fst m : forall (ts : list ctree) b final,
  fst (apply_back m ts b final) =
  final ++ map place (flat_map (fun t' => map (pair [cp_matrix (cdata t'); m]) (own_contours (cdata t'))) ts).
Proof.
  induction ts as [|t ts IH]; intros b final; cbn [apply_back flat_map]; [cbn; now rewrite app_nil_r|].
  pose proof (apply_component_fst (cdata t) [m] b final) as E. destruct (apply_component_rect (cdata t) [m] b final) as [f b']. cbn [fst] in E. subst f.
  rewrite IH, map_app, map_place, <- app_assoc. reflexivity.
Qed.
Lemma flatten_tree_fst (t : ctree) final : fst (flatten_tree t final) = final ++ map place (upper_contours t).
Proof.
  unfold flatten_tree. destruct t as [k ts]. cbn [cdata cchildren].
  pose proof (apply_component_fst k [] (pos_zero, pos_zero, pos_zero, pos_zero) final) as E.
  destruct (apply_component_rect k [] _ final) as [f b]. cbn [fst] in E. subst f.
  pose proof (apply_back_fst (cp_matrix k) (rev ts) b (final ++ map (map (moveM [cp_matrix k])) (own_contours k))) as E.
  destruct (apply_back (cp_matrix k) (rev ts) b _) as [f [[[x1 x2] x3] x4]]. cbn [fst] in *. subst f.
  unfold upper_contours. rewrite map_app, map_place, <- app_assoc. reflexivity.
Qed.
Lemma flatten_forest_fst : forall (f : list ctree) final, fst (flatten_forest f final) = final ++ map place (flat_map upper_contours f).
Proof.
  induction f as [|t f IH]; intros final; cbn [flatten_forest flat_map]; [cbn; now rewrite app_nil_r|].
  pose proof (flatten_tree_fst t final) as E. destruct (flatten_tree t final) as [f1 r]. cbn [fst] in E. subst f1.
  specialize (IH (final ++ map place (upper_contours t))). destruct (flatten_forest f _) as [f2 rs]. cbn [fst] in *. subst f2.
  now rewrite map_app, app_assoc.
Qed.
Lemma flatten_forest_snd : forall (f : list ctree) final, exists finals, List.length finals = List.length f /\
  snd (flatten_forest f final) = map (fun tf => snd (flatten_tree (fst tf) (snd tf))) (combine f finals).
Proof.
  induction f as [|t f IH]; intros final; cbn [flatten_forest].
  - exists []. split; reflexivity.
  - destruct (flatten_tree t final) as [f1 r] eqn:E. destruct (IH f1) as (fs & H1 & H2). destruct (flatten_forest f f1) as [f2 rs]. cbn [snd] in *. subst rs.
    exists (final :: fs). split; [cbn; now rewrite H1|]. cbn [combine map fst snd]. now rewrite E.
Qed.

Lemma moveM_moved ms (p : point PD) : moved_point ms p (moveM ms p).
Proof.
  unfold moveM, moved_point. revert p. induction ms as [|m ms IH]; intros p; cbn [fold_left].
  - repeat split; try reflexivity; [now destruct (pa p)|now destruct (pb p)].
  - destruct (IH (apply_matrix m p)) as (H1 & H2 & H3 & H4 & H5 & H6 & H7).
    unfold apply_matrix in *. unfold move_xy in *. cbn [fold_left] in *. destruct (apply_xy m (px p) (py p)) as [x y] eqn:E. cbn [px py pa pb pname pptype psmooth pdata] in *.
    repeat split; try assumption.
    + rewrite H2. unfold move_handle, move_xy. destruct (pa p) as [a1 a2|]; [|reflexivity]. cbn [apply_handle fold_left]. destruct (apply_xy m a1 a2); reflexivity.
    + rewrite H3. unfold move_handle, move_xy. destruct (pb p) as [a1 a2|]; [|reflexivity]. cbn [apply_handle fold_left]. destruct (apply_xy m a1 a2); reflexivity.
Qed.
Lemma place_moved x : moved (fst x) (snd x) (place x).
Proof. unfold place, moved. induction (snd x) as [|p c IH]; cbn [map]; constructor; [apply moveM_moved|assumption]. Qed.
Lemma places_moved l : Forall2 (fun x c' => moved (fst x) (snd x) c') l (map place l).
Proof. induction l; cbn [map]; constructor; [apply place_moved|assumption]. Qed.

Lemma all_split (t : ctree) : Permutation (all_contours [] t) (upper_contours t ++ lower_contours t).
Proof.
  destruct t as [k ts]. cbn [all_contours upper_contours lower_contours]. rewrite <- app_assoc. apply Permutation_app_head.
  set (f := fun t' : ctree => map (pair [cp_matrix (cdata t'); cp_matrix k]) (own_contours (cdata t'))).
  set (g := fun t' : ctree => flat_map (all_contours [cp_matrix (cdata t'); cp_matrix k]) (cchildren t')).
  transitivity (flat_map f ts ++ flat_map g ts).
  - induction ts as [|t ts IH]; [constructor|]. cbn [flat_map]. rewrite IH. destruct t as [k' ts']. cbn [all_contours].
    change (map (pair [cp_matrix k'; cp_matrix k]) (own_contours k')) with (f (CNode k' ts')).
    change (flat_map (all_contours [cp_matrix k'; cp_matrix k]) ts') with (g (CNode k' ts')).
    rewrite <- !app_assoc. apply Permutation_app_head. rewrite !app_assoc. apply Permutation_app_tail, Permutation_app_comm.
  - apply Permutation_app_tail. apply Permutation_flat_map. apply Permutation_rev.
Qed.
Lemma all_split_forest (f : list ctree) : Permutation (flat_map (all_contours []) f) (flat_map upper_contours f ++ flat_map lower_contours f).
Proof.
  induction f as [|t f IH]; [constructor|]. cbn [flat_map]. rewrite IH, all_split. rewrite <- !app_assoc. apply Permutation_app_head.
  rewrite !app_assoc. apply Permutation_app_tail, Permutation_app_comm.
Qed.
Lemma shallow_lower (t : ctree) : shallow t -> lower_contours t = [].
Proof.
  unfold shallow. destruct t as [k ts]. cbn [cchildren lower_contours]. induction ts as [|t ts IH]; intros H; [reflexivity|]. cbn [flat_map].
  rewrite (H t) by now left. cbn. apply IH. intros t' Ht. apply H. now right.
Qed.
End Flatten.
