(** Saving and loading: what is written is read back. *)
Require Import Coq.Strings.String Coq.Lists.List Coq.NArith.NArith Coq.ZArith.ZArith Coq.Arith.Arith Coq.Bool.Bool Coq.micromega.Lia.
Require Import Verif.Model.Base Verif.Model.Text Verif.Model.Float Verif.Model.Num Verif.Model.Point
  Verif.Model.Contour Verif.Model.Names Verif.Model.Color Verif.Model.Xml Verif.Model.Parts Verif.Model.Component
  Verif.Model.Mpoint Verif.Model.Mfek Verif.Model.Serde.
Require Import Verif.Spec.SerdeSpec.
Require Import Verif.Facts.NamesFacts Verif.Facts.FloatFacts.
Import ListNotations.
Local Open Scope string_scope.

(** * Paths *)

Definition plain (c : str) : Prop := c <> [] /\ c <> lit "." /\ ~ In 47%N c.

Fixpoint join_slash (l : list str) : str :=
  match l with [] => [] | [c] => c | c :: t => (c ++ 47%N :: join_slash t)%list end.

Lemma path_text_eq p : path_text p =
  match p with
  | c :: t => if str_eqb c (lit "/") then 47%N :: join_slash t else join_slash p
  | [] => []
  end.
Proof. reflexivity. Qed.

Lemma split_on_no c : ~ In 47%N c -> split_on 47 c = [c].
Proof.
  induction c as [|x c IH]; intros H; [reflexivity|].
  cbn [split_on]. destruct (N.eqb_spec x 47) as [->|D]; [destruct H; now left|].
  rewrite IH by (intro; apply H; now right). reflexivity.
Qed.
Lemma split_on_app c t : ~ In 47%N c -> split_on 47 (c ++ 47%N :: t)%list = c :: split_on 47 t.
Proof.
  induction c as [|x c IH]; intros H; [reflexivity|].
  cbn [split_on app]. destruct (N.eqb_spec x 47) as [->|D]; [destruct H; now left|].
  rewrite IH by (intro; apply H; now right). reflexivity.
Qed.
Lemma split_on_join l : l <> [] -> Forall (fun c => ~ In 47%N c) l -> split_on 47 (join_slash l) = l.
Proof.
  induction l as [|c l IH]; intros N H; [easy|].
  inversion H as [|? ? Hc Hl]; subst. destruct l as [|d l].
  - now apply split_on_no.
  - change (join_slash (c :: d :: l)) with (c ++ 47%N :: join_slash (d :: l))%list.
    rewrite split_on_app by assumption. f_equal. now apply IH.
Qed.
Lemma split_on_parts s c : In c (split_on 47 s) -> ~ In 47%N c.
Proof.
  revert c. induction s as [|x s IH]; intros c; cbn [split_on].
  - intros [<-|[]] [].
  - destruct (N.eqb_spec x 47) as [->|D].
    + intros [<-|H]; [intros []|now apply IH].
    + destruct (split_on 47 s) as [|h t]; [intros [<-|[]] [|[]]; congruence|].
      intros [<-|H].
      * intros [E|E]; [congruence|]. revert E. apply IH. now left.
      * apply IH. now right.
Qed.

Lemma names_plain s : Forall plain (filter (fun c => negb (str_eqb c []) && negb (str_eqb c (lit "."))) (split_on 47 s)).
Proof.
  apply Forall_forall. intros c H. apply filter_In in H as [H1 H2]. apply andb_prop in H2 as [H2 H3].
  apply negb_true_iff in H2, H3. repeat split.
  - intros ->. discriminate.
  - intros ->. discriminate.
  - now apply split_on_parts in H1.
Qed.
Lemma plain_filter l : Forall plain l ->
  filter (fun c => negb (str_eqb c []) && negb (str_eqb c (lit "."))) l = l.
Proof.
  induction 1 as [|c l (H1 & H2 & H3) _ IH]; [reflexivity|]. cbn [filter]. rewrite IH.
  destruct (str_eqb c []) eqn:E; [apply str_eqb_eq in E; easy|].
  destruct (str_eqb c (lit ".")) eqn:E'; [apply str_eqb_eq in E'; easy|]. reflexivity.
Qed.
Lemma plain_no l : Forall plain l -> Forall (fun c => ~ In 47%N c) l.
Proof. apply Forall_impl. intros c H. apply H. Qed.

Lemma path_of_root l : Forall plain l -> path_of (47%N :: join_slash l) = lit "/" :: l.
Proof.
  intros H. unfold path_of. change (47%N :: join_slash l) with ([] ++ 47%N :: join_slash l)%list.
  rewrite split_on_app by (intros []). destruct l as [|c l]; [reflexivity|].
  rewrite split_on_join by (try easy; now apply plain_no).
  f_equal. exact (plain_filter (c :: l) H).
Qed.
Lemma path_of_dot l : Forall plain l -> path_of (join_slash (lit "." :: l)) = lit "." :: l.
Proof.
  intros H. unfold path_of.
  rewrite split_on_join; [|easy|constructor; [cbn; intuition congruence|now apply plain_no]].
  cbn [filter]. rewrite plain_filter by assumption. reflexivity.
Qed.
Lemma path_of_names l : Forall plain l -> path_of (join_slash l) = l.
Proof.
  intros H. destruct l as [|c l]; [reflexivity|]. unfold path_of.
  rewrite split_on_join by (try easy; now apply plain_no).
  rewrite plain_filter by assumption. inversion H as [|? ? (H1 & H2 & H3) Hl]; subst.
  destruct c as [|x c]; [easy|].
  destruct (str_eqb (x :: c) (lit ".")) eqn:E; [apply str_eqb_eq in E; easy|]. reflexivity.
Qed.
Lemma path_shape s : exists l, Forall plain l /\
  (path_of s = lit "/" :: l \/ path_of s = lit "." :: l \/ path_of s = l).
Proof.
  pose proof (names_plain s) as N. unfold path_of.
  destruct (split_on 47 s) as [|c [|d l]]; eexists; (split; [exact N|]).
  - auto.
  - destruct c as [|x c]; [cbn; auto|].
    destruct (str_eqb (x :: c) (lit ".")) eqn:E1; [|auto]. apply str_eqb_eq in E1. rewrite E1. auto.
  - destruct c as [|x c]; [auto|].
    destruct (str_eqb (x :: c) (lit ".")) eqn:E1; [|auto]. apply str_eqb_eq in E1. rewrite E1. auto.
Qed.
Lemma path_text_of p : a_path p -> path_of (path_text p) = p.
Proof.
  intros [s <-]. destruct (path_shape s) as (l & Hl & [E|[E|E]]); rewrite E, path_text_eq.
  - now apply path_of_root.
  - now apply path_of_dot.
  - destruct l as [|c l]; [reflexivity|].
    destruct (str_eqb c (lit "/")) eqn:E'; [|now apply path_of_names].
    apply str_eqb_eq in E' as ->. inversion Hl as [|? ? (_ & _ & H) _]. destruct H. now left.
Qed.

(** * Parts *)

(** What is written of a good value is read back as that value. *)
Definition rt {A} (en : A -> option json) (de : json -> option A) (ok : A -> Prop) : Prop :=
  forall x j, ok x -> en x = Some j -> de j = Some x.
Definition nonnull {A} (en : A -> option json) : Prop := forall x j, en x = Some j -> j <> JNull.
Definition any {A} (_ : A) : Prop := True.

Lemma jstruct_nonnull l j : jstruct l = Some j -> j <> JNull.
Proof. unfold jstruct. destruct (fields l); [|discriminate]. intros [= <-]. discriminate. Qed.
Lemma jnewtype_nonnull n v j : jnewtype n v = Some j -> j <> JNull.
Proof. unfold jnewtype. destruct v; [|discriminate]. intros [= <-]. discriminate. Qed.
Lemma en_vec_nonnull {A} (en : A -> option json) : nonnull (en_vec en).
Proof. intros l j. unfold en_vec. destruct (elements en l); [|discriminate]. intros [= <-]. discriminate. Qed.

Lemma rt_opt {A} (en : A -> option json) de (ok : A -> Prop) o j :
  (forall x j, ok x -> en x = Some j -> de j = Some x) ->
  (forall x j, o = Some x -> en x = Some j -> j <> JNull) ->
  if_some ok o -> en_opt en o = Some j -> de_opt de j = Some o.
Proof.
  intros R N K E. destruct o as [x|]; cbn [en_opt] in E.
  - specialize (R x j (K x eq_refl) E). specialize (N x j eq_refl E).
    unfold de_opt. destruct j; try easy; now rewrite R.
  - injection E as <-. reflexivity.
Qed.
Lemma elements_cons {A} (en : A -> option json) x l :
  elements en (x :: l) = let? j := en x in let? r := elements en l in Some (j :: r).
Proof. reflexivity. Qed.
Lemma rt_elements {A B} (en : A -> option json) (de : json -> option B) f l r :
  (forall x j, In x l -> en x = Some j -> de j = Some (f x)) ->
  elements en l = Some r -> all_of de r = Some (map f l).
Proof.
  revert r. induction l as [|x l IH]; intros r R E.
  - injection E as <-. reflexivity.
  - rewrite elements_cons in E. destruct (en x) as [j|] eqn:Ex; [|discriminate]. cbn [obind] in E.
    destruct (elements en l) as [t|] eqn:Et; [|discriminate]. injection E as <-.
    cbn [all_of map]. rewrite (R x j (or_introl eq_refl) Ex). cbn [obind].
    rewrite (IH t); [reflexivity| |reflexivity].
    intros y j' I. apply R. now right.
Qed.
Lemma rt_vec_map {A B} (en : A -> option json) (de : json -> option B) f l j :
  (forall x j, In x l -> en x = Some j -> de j = Some (f x)) ->
  en_vec en l = Some j -> de_vec de j = Some (map f l).
Proof.
  intros R E. unfold en_vec in E. destruct (elements en l) as [r|] eqn:Er; [|discriminate].
  injection E as <-. now apply (rt_elements en).
Qed.
Lemma rt_vec {A} (en : A -> option json) de (ok : A -> Prop) : rt en de ok -> rt (en_vec en) (de_vec de) (Forall ok).
Proof.
  intros R l j K E. rewrite <- (map_id l). apply (rt_vec_map en); [|assumption].
  intros x j' I. rewrite Forall_forall in K. apply R. now apply K.
Qed.

Lemma set_add_all {A} (eqb : A -> A -> bool) (l acc : list A) :
  (forall a b, eqb a b = true <-> a = b) -> NoDup (acc ++ l) -> fold_left (set_add eqb) l acc = (acc ++ l)%list.
Proof.
  intros E. revert acc. induction l as [|x l IH]; intros acc N; [now rewrite app_nil_r|].
  cbn [fold_left]. unfold set_add at 2.
  destruct (existsb (eqb x) acc) eqn:X.
  - exfalso. apply existsb_exists in X as (y & I & Y). apply E in Y as <-.
    apply NoDup_remove_2 in N. apply N. apply in_or_app. now left.
  - rewrite IH; rewrite <- app_assoc; [reflexivity|assumption].
Qed.
Lemma rt_set {A} (eqb : A -> A -> bool) (en : A -> option json) de (ok : A -> Prop) :
  (forall a b, eqb a b = true <-> a = b) -> rt en de ok ->
  rt (en_vec en) (de_set eqb de) (fun l => NoDup l /\ Forall ok l).
Proof.
  intros E R l j [N K] W. unfold de_set. rewrite (rt_vec en de ok R l j K W). cbn [obind].
  now rewrite set_add_all.
Qed.

Lemma rt_f32 : rt en_f32 de_f32 f32_ok.
Proof.
  intros x j [V F] E. unfold en_f32 in E. rewrite F in E. injection E as <-. cbn. now rewrite f32_of_f64_of_f32.
Qed.
Lemma rt_f64 : rt en_f64 de_f64 f64_ok.
Proof. intros x j F E. unfold en_f64 in E. rewrite F in E. injection E as <-. reflexivity. Qed.
Lemma rt_bool : rt en_bool de_bool any.
Proof. intros x j _ [= <-]. reflexivity. Qed.
Lemma rt_str : rt en_str de_str any.
Proof. intros x j _ [= <-]. reflexivity. Qed.
Lemma rt_char : rt en_char de_char any.
Proof. intros x j _ [= <-]. reflexivity. Qed.
Lemma rt_nat b : rt en_nat (de_nat b) (fun n => (Z.of_N n < b)%Z).
Proof.
  intros n j K [= <-]. cbn [de_nat].
  destruct (Z.leb_spec 0 (Z.of_N n)); [|lia]. destruct (Z.ltb_spec (Z.of_N n) b); [|lia].
  cbn. now rewrite N2Z.id.
Qed.
Lemma rt_u64 : rt en_nat (de_nat u64_bound) a_u64.
Proof. intros n j K. apply rt_nat. exact K. Qed.
Lemma rt_path : rt en_path de_path a_path.
Proof. intros p j K [= <-]. unfold de_path. cbn. now rewrite path_text_of. Qed.
Lemma rt_osstr : rt en_osstr de_osstr any.
Proof. intros o j _. destruct o; [|discriminate]. intros [= <-]. reflexivity. Qed.

Ltac units := intros x j _ E; destruct x; injection E as <-; reflexivity.
Lemma rt_ptype : rt en_ptype de_ptype any. Proof. units. Qed.
Lemma rt_which : rt en_which de_which any. Proof. units. Qed.
Lemma rt_anchor_type : rt en_anchor_type de_anchor_type any. Proof. units. Qed.
Lemma rt_join : rt en_join de_join any. Proof. units. Qed.
Lemma rt_cap : rt en_cap de_cap any. Proof. units. Qed.
Lemma rt_interpolation : rt en_interpolation de_interpolation any. Proof. units. Qed.
Lemma rt_copies : rt en_copies de_copies any. Proof. units. Qed.
Lemma rt_stretch : rt en_stretch de_stretch any. Proof. units. Qed.
Lemma rt_layer_operation : rt en_layer_operation de_layer_operation any. Proof. units. Qed.
Lemma rt_hyper_kind : rt en_hyper_kind de_hyper_kind any. Proof. units. Qed.

Lemma en_f32_some x : exists j, en_f32 x = Some j.
Proof. unfold en_f32. eauto. Qed.

Lemma rt_handle : rt en_handle de_handle handle_ok.
Proof.
  intros h j K E. destruct h as [x y|].
  - destruct K as [Kx Ky]. cbn [en_handle] in E. unfold jtuple, en_vec, elements in E.
    destruct (en_f32 x) as [jx|] eqn:Ex; [|discriminate]. cbn [obind] in E.
    destruct (en_f32 y) as [jy|] eqn:Ey; [|discriminate]. cbn [obind] in E.
    unfold jnewtype in E. cbn [obind] in E. injection E as <-.
    apply rt_f32 in Ex; [|assumption]. apply rt_f32 in Ey; [|assumption].
    unfold de_handle. cbn [variant obind]. change (str_eqb (lit "At") (lit "At")) with true. cbn iota.
    now rewrite Ex, Ey.
  - injection E as <-. reflexivity.
Qed.

(** Taking the written form of a struct apart, and reading it field by field. *)
Ltac open_struct E :=
  unfold jstruct in E; cbn [fields] in E;
  repeat match type of E with
  | context [obind ?v _] =>
      lazymatch v with
      | obind _ _ => fail
      | Some _ => cbn [obind] in E
      | _ => let F := fresh "F" in destruct v eqn:F; cbn [obind] in E; [|discriminate E]
      end
  end; injection E as <-.
Ltac find_fields :=
  lazy [req opt dflt source_of field lookup lit map list_ascii_of_string str_eqb
        Ascii.N_of_ascii Ascii.N_of_digits N.add N.mul N.eqb Pos.eqb Pos.add Pos.mul Pos.succ andb
        obind].


Ltac okk := first [ assumption | exact I | (apply Forall_forall; intros; exact I) | (intros ? ?; exact I) ].
Ltac rts := first
  [ exact rt_f32 | exact rt_f64 | exact rt_bool | exact rt_str | exact rt_char | exact rt_u64 | exact rt_path
  | exact rt_osstr | exact rt_ptype | exact rt_anchor_type | exact rt_join | exact rt_cap | exact rt_interpolation
  | exact rt_copies | exact rt_stretch | exact rt_layer_operation | exact rt_hyper_kind | exact rt_handle
  | eassumption | (refine (rt_vec _ _ _ _); rts) ].
Ltac nns := intros ? ? _; first
  [ (intros [= <-]; discriminate) | apply jstruct_nonnull | apply en_vec_nonnull | apply jnewtype_nonnull
  | (intros HH; destruct (_ : layer_operation); injection HH as <-; discriminate) ].
Ltac read_back :=
  lazymatch goal with
  | |- de_opt ?de ?j = Some _ =>
      lazymatch goal with
      | F : en_opt ?en ?o = Some j |- _ =>
          let T := fresh in eassert (T : rt en de _) by rts;
          refine (rt_opt en de _ o j T _ _ F); [try (nns; fail)|try (okk; fail)]
      end
  | |- ?de ?j = Some _ =>
      match goal with
      | F : ?en ?x = Some j |- _ =>
          let T := fresh in eassert (T : rt en de _) by rts; refine (T x j _ F); try okk
      end
  end.
Ltac next_field :=
  lazymatch goal with
  | |- match ?t with Some _ => _ | None => None end = _ =>
      let H := fresh "R" in eassert (H : t = Some _); [read_back|rewrite H; clear H; cbv beta iota]
  end.

Section Serde.
Context {PD PL : Type} (S : serdelib PD PL) (K : faithful S).

Ltac iofs := rewrite ?(keeps_iof S K) by assumption.
Lemma rt_data o j : data_ok S o -> en_opt (pd_en S) o = Some j -> de_opt (pd_de S) j = Some o.
Proof.
  intros O F. refine (rt_opt (pd_en S) (pd_de S) any o j (fun x j _ => keeps_data S K x j) _ _ F).
  - intros x j' Ex Ej ->. exact (O x Ex Ej).
  - intros ? ?. exact I.
Qed.

Lemma rt_glifpoint : rt (en_glifpoint S) (de_glifpoint S) (fun p => iof_ok (gx p) /\ iof_ok (gy p)).
Proof.
  intros p j (O1 & O2) E. unfold en_glifpoint in E. open_struct E.
  unfold de_glifpoint. find_fields. iofs. repeat next_field. now destruct p.
Qed.
Lemma rt_point : rt (en_point S) (de_point S) (point_ok S).
Proof.
  intros p j (O1 & O2 & O3 & O4 & O5) E. unfold en_point in E. open_struct E.
  unfold de_point. find_fields. do 7 next_field.
  rewrite (rt_data _ _ O5 F6). now destruct p.
Qed.
Lemma rt_qpoint : rt (en_qpoint S) (de_qpoint S) (qpoint_ok S).
Proof.
  intros p j (O1 & O2 & O3 & O5) E. unfold en_qpoint in E. open_struct E.
  unfold de_qpoint. find_fields. do 6 next_field.
  rewrite (rt_data _ _ O5 F5). now destruct p.
Qed.
Lemma rt_hpoint : rt (en_hpoint S) (de_hpoint S) (hpoint_ok S).
Proof.
  intros p j (O1 & O2 & O3 & O4 & O5) E. unfold en_hpoint in E. open_struct E.
  unfold de_hpoint. find_fields. do 6 next_field.
  rewrite (rt_data _ _ O5 F5). now destruct p.
Qed.
Lemma rt_color : rt (en_color S) (de_color S) color_ok.
Proof.
  intros c j (O1 & O2 & O3 & O4) E. unfold en_color in E. open_struct E.
  unfold de_color. find_fields. iofs. now destruct c.
Qed.
Lemma rt_anchor : rt (en_anchor S) (de_anchor S) anchor_ok.
Proof.
  intros a j (O1 & O2) E. unfold en_anchor in E. open_struct E.
  unfold de_anchor. find_fields. do 3 next_field. rewrite (keeps_data S K _ _ F2). next_field. now destruct a.
Qed.
Lemma rt_glifanchor : rt (en_glifanchor S) (de_glifanchor S) (fun p => iof_ok (ga_x p) /\ iof_ok (ga_y p)).
Proof.
  intros p j (O1 & O2) E. unfold en_glifanchor in E. open_struct E.
  unfold de_glifanchor. find_fields. iofs.
  change en_glif_string with en_str in F. change de_glif_string with de_str. repeat next_field. now destruct p.
Qed.
Lemma rt_guideline : rt (en_guideline S) (de_guideline S) guideline_ok.
Proof.
  intros g j (O1 & O2 & O3 & O4) E. unfold en_guideline in E.
  destruct (jstruct [("x", _); ("y", _)]) as [at_|] eqn:A; [|discriminate]. open_struct E.
  assert (R : de_guideline_point at_ = Some (gl_x g, gl_y g)).
  { open_struct A. unfold de_guideline_point. find_fields. repeat next_field. reflexivity. }
  pose proof rt_color as C.
  unfold de_guideline. find_fields. rewrite R. iofs. repeat next_field. rewrite (keeps_data S K _ _ F2). now destruct g.
Qed.
Lemma rt_glifcomponent : rt (en_glifcomponent S) (de_glifcomponent S) glifcomponent_ok.
Proof.
  intros c j (O1 & O2) E. destruct O2 as (M1 & M2 & M3 & M4 & M5 & M6). unfold en_glifcomponent in E. cbv zeta in E. open_struct E.
  unfold de_glifcomponent. find_fields. next_field. next_field. iofs. next_field. now destruct c as [? ? [] ?].
Qed.
Lemma rt_glifoutline o j :
  Forall (Forall (fun p => iof_ok (gx p) /\ iof_ok (gy p))) (go_contours o) -> Forall glifcomponent_ok (go_components o) ->
  en_glifoutline S o = Some j -> de_glifoutline S j = Some o.
Proof.
  intros O1 O2 E. unfold en_glifoutline in E. open_struct E. pose proof rt_glifcomponent as C. pose proof rt_glifpoint as P.
  unfold de_glifoutline. find_fields. repeat next_field. now destruct o.
Qed.
Lemma rt_glifcomponents : rt (en_glifcomponents S) (de_glifcomponents S) glifcomponents_ok.
Proof.
  intros c j (O1 & O2) E. unfold en_glifcomponents in E. open_struct E. pose proof rt_glifcomponent as C.
  unfold de_glifcomponents. remember (de_set str_eqb de_str) as u eqn:U. find_fields. next_field. next_field. subst u.
  rewrite (rt_set str_eqb en_str de_str any str_eqb_eq rt_str _ _ (conj O2 (proj2 (Forall_forall any _) (fun _ _ => I))) F1).
  now destruct c.
Qed.
Lemma rt_rect : rt en_rect de_rect rect_ok.
Proof.
  intros r j (O1 & O2 & O3 & O4) E. unfold en_rect in E. open_struct E.
  unfold de_rect. find_fields. repeat next_field. now destruct r.
Qed.
Lemma rt_glifimage : rt (en_glifimage S) (de_glifimage S) glifimage_ok.
Proof.
  intros i j (O1 & O2) E. destruct O1 as (M1 & M2 & M3 & M4 & M5 & M6). pose proof rt_color as C. unfold en_glifimage in E. cbv zeta in E. open_struct E.
  unfold de_glifimage. find_fields. next_field. iofs. repeat next_field. now destruct i as [? [] ? ?].
Qed.
Ltac open_tuple E := unfold jtuple, en_vec in E; rewrite ?elements_cons in E; cbn [elements] in E; open_struct E.
Lemma rt_affine : rt en_affine de_affine affine_ok.
Proof.
  intros m j (O1 & O2 & O3 & O4 & O5 & O6) E. unfold en_affine in E. open_tuple E.
  unfold de_affine. lazy [obind]. repeat next_field. now destruct m.
Qed.
Lemma rt_lib : rt (en_lib S) (de_lib S) any.
Proof.
  intros l j _ E. destruct l as [|d|e].
  - injection E as <-. reflexivity.
  - cbn [en_lib] in E. unfold jnewtype in E. destruct (pl_en S d) as [j'|] eqn:P; [|discriminate].
    injection E as <-. unfold de_lib. cbn [variant obind].
    change (str_eqb (lit "Plist") (lit "None")) with false. change (str_eqb (lit "Plist") (lit "Plist")) with true.
    cbn iota. cbn [obind]. now rewrite (keeps_plist S K _ _ P).
  - discriminate.
Qed.
Lemma rt_glif g j : glif_ok S g -> en_glif S g = Some j -> de_glif S j = Some (glif_saved g).
Proof.
  intros (O1 & O2 & O3 & O4 & O5 & O6) E. unfold en_glif in E. open_struct E.
  pose proof rt_point as P1. pose proof rt_anchor as P2. pose proof rt_glifcomponents as P3.
  pose proof rt_guideline as P4. pose proof rt_glifimage as P5. pose proof rt_lib as P6.
  unfold de_glif. find_fields. repeat next_field. reflexivity.
Qed.
Lemma rt_component c j : glif_ok S (cp_glif c) -> affine_ok (cp_matrix c) -> en_component S c = Some j ->
  de_component S j = Some (mkComp (glif_saved (cp_glif c)) (cp_matrix c)).
Proof.
  intros O1 O2 E. unfold en_component in E. open_struct E. pose proof rt_affine as A.
  unfold de_component. find_fields. rewrite (rt_glif _ _ O1 F). next_field. reflexivity.
Qed.

(** * Contours *)

Lemma rt_vws : rt en_vws de_vws vws_ok.
Proof.
  assert (H : rt en_vws_handle de_vws_handle vws_handle_ok).
  { intros h j (O1 & O2 & O3) E. unfold en_vws_handle in E. open_struct E.
    unfold de_vws_handle. find_fields. repeat next_field. now destruct h. }
  intros v j O E. unfold en_vws in E. open_struct E. unfold de_vws. find_fields. repeat next_field. now destruct v.
Qed.
Lemma rt_dash : rt en_dash de_dash dash_ok.
Proof.
  assert (H : rt en_cull de_cull cull_ok).
  { intros h j (O1 & O2) E. unfold en_cull in E. open_struct E.
    unfold de_cull. find_fields. repeat next_field. now destruct h. }
  intros d j (O1 & O2 & O3 & O4 & O5) E. unfold en_dash in E. open_struct E. unfold de_dash. find_fields.
  do 4 next_field. rewrite (rt_nat 256 _ _ O4 F3), (rt_nat 256 _ _ O5 F4). now destruct d.
Qed.
Lemma rt_pair a b j : f64_ok a -> f64_ok b -> jtuple [en_f64 a; en_f64 b] = Some j -> de_pair j = Some (a, b).
Proof. intros O1 O2 E. open_tuple E. unfold de_pair. lazy [obind]. repeat next_field. reflexivity. Qed.

Lemma rt_inner : rt (en_inner S) (de_inner S) (inner_ok S).
Proof.
  pose proof rt_point as P1. pose proof rt_qpoint as P2. pose proof rt_hpoint as P3.
  intros i j O E. destruct i as [l|l|l o]; cbn [en_inner] in E; unfold jnewtype in E.
  - destruct (en_vec _ l) eqn:F; [|discriminate]. injection E as <-.
    unfold de_inner. cbn [variant obind]. change (str_eqb (lit "Cubic") (lit "Cubic")) with true. lazy [obind]. cbn iota.
    next_field. reflexivity.
  - destruct (en_vec _ l) eqn:F; [|discriminate]. injection E as <-.
    unfold de_inner. cbn [variant obind]. change (str_eqb (lit "Quad") (lit "Cubic")) with false.
    change (str_eqb (lit "Quad") (lit "Quad")) with true. lazy [obind]. cbn iota.
    next_field. reflexivity.
  - destruct (jstruct _) eqn:F; [|discriminate]. injection E as <-.
    unfold de_inner. cbn [variant obind]. change (str_eqb (lit "Hyper") (lit "Cubic")) with false.
    change (str_eqb (lit "Hyper") (lit "Quad")) with false. change (str_eqb (lit "Hyper") (lit "Hyper")) with true.
    cbn iota. cbn [obind].
    assert (R : de_hyper_inner S j0 = Some (l, o)).
    { open_struct F. unfold de_hyper_inner. find_fields. repeat next_field. reflexivity. }
    rewrite R. reflexivity.
Qed.

(** * How deep documents are *)

Lemma max_in (f : json -> nat) l j : In j l -> f j <= fold_right Nat.max 0 (map f l).
Proof. induction l as [|x l IH]; intros H; [destruct H|]. cbn [map fold_right]. destruct H as [->|H]; [lia|]. specialize (IH H). lia. Qed.
Lemma depth_in l j : In j l -> jdepth j < jdepth (JArr l).
Proof. intros H. apply (max_in jdepth) in H. cbn [jdepth]. lia. Qed.
Lemma depth_entry l n j : In (n, j) l -> jdepth j < jdepth (JObj l).
Proof.
  intros H. cbn [jdepth]. apply le_n_S.
  induction l as [|[m x] l IH]; [destruct H|]. cbn [map fold_right snd].
  destruct H as [H|H]; [injection H as -> ->; lia|]. specialize (IH H). lia.
Qed.
Lemma lookup_in n l j : lookup n l = Some j -> exists k, In (k, j) l.
Proof.
  induction l as [|[k v] l IH]; cbn [lookup]; [discriminate|]. destruct (str_eqb k n).
  - intros [= ->]. exists k. now left.
  - intros H. destruct (IH H) as [k' I']. exists k'. now right.
Qed.
Lemma field_depth n j s i m j' : source_of n j = Some s -> field s i m = Some j' -> jdepth j' < jdepth j.
Proof.
  intros H F. destruct j; try discriminate; cbn [source_of] in H.
  - destruct (Nat.leb _ _); [|discriminate]. injection H as <-. cbn [field] in F. apply nth_error_In in F. now apply depth_in.
  - injection H as <-. cbn [field] in F. apply lookup_in in F as [k F]. now apply (depth_entry _ k).
Qed.
Lemma variant_depth j n j' : variant j = Some (n, Some j') -> jdepth j' < jdepth j.
Proof.
  destruct j as [| | | | | |l]; try discriminate. destruct l as [|[k v] [|]]; try discriminate.
  cbn [variant]. intros [= -> ->]. apply (depth_entry _ n). now left.
Qed.

(** * Readers only look at parts of a document *)

Lemma all_of_ext {A} (de de' : json -> option A) l : (forall j, In j l -> de j = de' j) -> all_of de l = all_of de' l.
Proof.
  induction l as [|x l IH]; intros H; [reflexivity|]. cbn [all_of].
  rewrite (H x (or_introl eq_refl)), IH by (intros; apply H; now right). reflexivity.
Qed.
Lemma de_vec_ext {A} (de de' : json -> option A) j : (forall j', jdepth j' < jdepth j -> de j' = de' j') -> de_vec de j = de_vec de' j.
Proof. intros H. destruct j; try reflexivity. cbn [de_vec]. apply all_of_ext. intros j I. apply H. now apply depth_in. Qed.
Lemma de_opt_ext {A} (de de' : json -> option A) j : de j = de' j -> de_opt de j = de_opt de' j.
Proof. intros H. unfold de_opt. now rewrite H. Qed.
Lemma req_ext {A} n j s i m (de de' : json -> option A) : source_of n j = Some s ->
  (forall j', jdepth j' < jdepth j -> de j' = de' j') -> req s i m de = req s i m de'.
Proof.
  intros H E. unfold req. destruct (field s i m) as [j'|] eqn:F; [|reflexivity]. cbn [obind]. apply E.
  now apply (field_depth n j s i m).
Qed.
Lemma opt_ext {A} n j s i m (de de' : json -> option A) : source_of n j = Some s ->
  (forall j', jdepth j' < jdepth j -> de j' = de' j') -> opt s i m de = opt s i m de'.
Proof.
  intros H E. unfold opt. destruct (field s i m) as [j'|] eqn:F; [|reflexivity]. apply de_opt_ext, E.
  now apply (field_depth n j s i m).
Qed.
Lemma obind_ext {A B} (o o' : option A) (k k' : A -> option B) : o = o' -> (forall a, k a = k' a) -> obind o k = obind o' k'.
Proof. intros -> H. destruct o'; [apply H|reflexivity]. Qed.
Lemma de_pap_ext {C} (de de' : json -> option C) j : (forall j', jdepth j' < jdepth j -> de j' = de' j') -> de_pap de j = de_pap de' j.
Proof.
  intros H. unfold de_pap. destruct (source_of 17 j) as [s|] eqn:Q; [|reflexivity]. cbn [obind].
  apply obind_ext; [|reflexivity]. apply (req_ext 17 j); [assumption|].
  intros j' L. apply de_vec_ext. intros j'' L'. apply H. lia.
Qed.
Lemma de_operations_ext {C} (de de' : json -> option C) j : (forall j', jdepth j' < jdepth j -> de j' = de' j') -> de_operations de j = de_operations de' j.
Proof.
  intros H. unfold de_operations. destruct (variant j) as [[n v]|] eqn:V; [|reflexivity]. cbn [obind].
  destruct (str_eqb n _); [reflexivity|]. destruct (str_eqb n _); [|reflexivity].
  apply obind_ext; [|reflexivity]. unfold variant_data. destruct v as [v|]; [|reflexivity].
  apply variant_depth in V. destruct v; try reflexivity.
  apply (req_ext 1 (JObj l)); [reflexivity|]. intros j' L. apply de_pap_ext. intros j'' L'. apply H. lia.
Qed.

(** Enough fuel is enough. *)
Lemma de_mcontour_fuel f f' j : jdepth j < f -> jdepth j < f' -> de_mcontour_in S f j = de_mcontour_in S f' j.
Proof.
  revert f' j. induction f as [|f IH]; intros f' j L L'; [lia|]. destruct f' as [|f']; [lia|].
  cbn [de_mcontour_in]. destruct (source_of 2 j) as [s|] eqn:Q; [|reflexivity]. cbn [obind].
  apply obind_ext; [reflexivity|]. intros i. apply obind_ext; [|reflexivity].
  apply (opt_ext 2 j); [assumption|]. intros j' D. apply de_operations_ext. intros j'' D'. apply IH; lia.
Qed.
Lemma de_mcontour_enough f j : jdepth j < f -> de_mcontour_in S f j = de_mcontour S j.
Proof. intros L. apply de_mcontour_fuel; [assumption|lia]. Qed.

(** One step of reading a contour. *)
Lemma de_mcontour_step j : de_mcontour S j =
  let? s := source_of 2 j in
  let? i := req s 0 "inner" (de_inner S) in
  let? o := opt s 1 "operation" (de_operations (de_mcontour S)) in
  Some (MC i o).
Proof.
  unfold de_mcontour at 1. cbn [de_mcontour_in]. destruct (source_of 2 j) as [s|] eqn:Q; [|reflexivity]. cbn [obind].
  apply obind_ext; [reflexivity|]. intros i. apply obind_ext; [|reflexivity].
  apply (opt_ext 2 j); [assumption|]. intros j' D. apply de_operations_ext. intros j'' D'. apply de_mcontour_enough; lia.
Qed.

Lemma rt_subdivide : rt en_subdivide de_subdivide
  (fun p => match p with SubOff => True | SubSimple n => a_u64 n | SubAngle a => f64_ok a end).
Proof.
  intros p j O E. destruct p as [|n|a]; cbn [en_subdivide] in E.
  - injection E as <-. reflexivity.
  - injection E as <-. unfold de_subdivide. cbn [variant obind].
    change (str_eqb (lit "Simple") (lit "Off")) with false. change (str_eqb (lit "Simple") (lit "Simple")) with true.
    cbn iota. cbn [obind]. now rewrite (rt_u64 _ _ O eq_refl).
  - unfold jnewtype in E. destruct (en_f64 a) eqn:F; [|discriminate]. injection E as <-.
    unfold de_subdivide. cbn [variant obind].
    change (str_eqb (lit "Angle") (lit "Off")) with false. change (str_eqb (lit "Angle") (lit "Simple")) with false.
    change (str_eqb (lit "Angle") (lit "Angle")) with true.
    cbn iota. cbn [obind]. now rewrite (rt_f64 _ _ O F).
Qed.
Lemma rt_culling : rt en_culling de_culling
  (fun p => match p with CullErase a b => f64_ok a /\ f64_ok b | _ => True end).
Proof.
  intros p j O E. destruct p as [| |a b]; cbn [en_culling] in E.
  - injection E as <-. reflexivity.
  - injection E as <-. reflexivity.
  - unfold jnewtype in E. destruct (jtuple _) eqn:F; [|discriminate]. injection E as <-.
    unfold de_culling. cbn [variant obind].
    change (str_eqb (lit "EraseOverlapping") (lit "Off")) with false.
    change (str_eqb (lit "EraseOverlapping") (lit "RemoveOverlapping")) with false.
    change (str_eqb (lit "EraseOverlapping") (lit "EraseOverlapping")) with true.
    cbn iota. cbn [obind]. destruct O as [Oa Ob]. now rewrite (rt_pair _ _ _ Oa Ob F).
Qed.
Lemma rt_pap {C} (en : C -> option json) de p j :
  (forall c j, In c (pp_pattern p) -> en c = Some j -> de j = Some c) -> pap_ok p ->
  en_pap en p = Some j -> de_pap de j = Some p.
Proof.
  intros R (O1 & O2 & O3 & O4 & O5 & O6 & O7) E. unfold en_pap in E.
  destruct (jtuple _) as [pair|] eqn:P in E; [|].
  2:{ exfalso. revert E. unfold jstruct. cbn [fields].
      repeat match goal with |- context [obind ?v _] =>
        lazymatch v with obind _ _ => fail | Some _ => cbn [obind] | None => cbn [obind]
        | _ => destruct v; cbn [obind]; [|discriminate] end end. discriminate. }
  open_struct E.
  apply (rt_vec_map en de (fun c => c)) in F; [|assumption]. rewrite map_id in F.
  apply rt_pair in P; [|assumption|assumption]. rewrite <- surjective_pairing in P.
  apply rt_subdivide in F1; [|assumption]. apply rt_culling in F9; [|assumption].
  unfold de_pap. find_fields. rewrite F. next_field. rewrite F1. do 6 next_field. rewrite P.
  next_field. rewrite F9. repeat next_field. now destruct p.
Qed.
Lemma rt_mcontour : rt (en_mcontour S) (de_mcontour S) (mcontour_ok S).
Proof.
  intros c j O. revert j. induction O as [i Oi|i v Oi Ov|i d Oi Od|i p Oi Op Oc IH]; intros j E;
    cbn [en_mcontour] in E; open_struct E; rewrite de_mcontour_step; pose proof rt_inner as RI.
  - find_fields. next_field. injection F0 as <-. reflexivity.
  - cbn [en_opt en_operations] in F0. unfold jnewtype, jstruct in F0. cbn [fields] in F0.
    destruct (en_vws v) as [jv|] eqn:V; [|discriminate]. injection F0 as <-.
    apply rt_vws in V; [|assumption].
    assert (R : de_opt (de_operations (de_mcontour S)) (JObj [(lit "VariableWidthStroke", JObj [(lit "data", jv)])]) = Some (Some (OpVws v))).
    { unfold de_opt, de_operations. cbn [variant obind].
      change (str_eqb (lit "VariableWidthStroke") (lit "VariableWidthStroke")) with true. cbn iota.
      unfold variant_data. find_fields. now rewrite V. }
    revert R. generalize (JObj [(lit "VariableWidthStroke", JObj [(lit "data", jv)])]). intros w R.
    find_fields. next_field. rewrite R. reflexivity.
  - cbn [en_opt en_operations] in F0. unfold jnewtype, jstruct in F0. cbn [fields] in F0.
    destruct (en_dash d) as [jv|] eqn:V; [|discriminate]. injection F0 as <-.
    apply rt_dash in V; [|assumption].
    assert (R : de_opt (de_operations (de_mcontour S)) (JObj [(lit "DashAlongPath", JObj [(lit "data", jv)])]) = Some (Some (OpDash d))).
    { unfold de_opt, de_operations. cbn [variant obind].
      change (str_eqb (lit "DashAlongPath") (lit "VariableWidthStroke")) with false.
      change (str_eqb (lit "DashAlongPath") (lit "PatternAlongPath")) with false.
      change (str_eqb (lit "DashAlongPath") (lit "DashAlongPath")) with true. cbn iota.
      unfold variant_data. find_fields. now rewrite V. }
    revert R. generalize (JObj [(lit "DashAlongPath", JObj [(lit "data", jv)])]). intros w R.
    find_fields. next_field. rewrite R. reflexivity.
  - cbn [en_opt en_operations] in F0. unfold jnewtype, jstruct in F0. cbn [fields] in F0.
    destruct (en_pap _ p) as [jv|] eqn:V; [|discriminate]. injection F0 as <-.
    apply (rt_pap _ (de_mcontour S)) in V; [|intros c j' Ic; now apply IH|assumption].
    assert (R : de_opt (de_operations (de_mcontour S)) (JObj [(lit "PatternAlongPath", JObj [(lit "data", jv)])]) = Some (Some (OpPap p))).
    { unfold de_opt, de_operations. cbn [variant obind].
      change (str_eqb (lit "PatternAlongPath") (lit "VariableWidthStroke")) with false.
      change (str_eqb (lit "PatternAlongPath") (lit "PatternAlongPath")) with true. cbn iota.
      unfold variant_data. find_fields. now rewrite V. }
    revert R. generalize (JObj [(lit "PatternAlongPath", JObj [(lit "data", jv)])]). intros w R.
    find_fields. next_field. rewrite R. reflexivity.
Qed.

(** * Layers and glyphs *)

Lemma rt_layer : rt (en_layer S) (de_layer S) (layer_ok S).
Proof.
  pose proof rt_color as C. pose proof rt_mcontour as M.
  assert (R : rt (fun im => jtuple [en_glifimage S (fst im); en_affine (snd im)]) (de_placed_image S)
                 (fun im => glifimage_ok (fst im) /\ affine_ok (snd im))).
  { pose proof rt_glifimage as P1. pose proof rt_affine as P2.
    intros [i m] j [O1 O2] E. cbn [fst snd] in *. open_tuple E. unfold de_placed_image. lazy [obind].
    repeat next_field. reflexivity. }
  intros l j (O1 & O2 & O3) E. unfold en_layer in E. open_struct E. unfold de_layer. find_fields.
  do 4 next_field.
  rewrite (rt_opt en_layer_operation de_layer_operation any (l_operation l) _ rt_layer_operation); [| |intros ? ?; exact I|exact F3].
  - next_field. now destruct l.
  - intros x j' _ H. destruct x; injection H as <-; discriminate.
Qed.
Lemma rt_mglif {H H'} (en : H -> option json) (de : json -> option H') f m j :
  mglif_ok S m -> (forall h j, In h (mg_history m) -> en h = Some j -> de j = Some (f h)) ->
  en_mglif S en m = Some j -> de_mglif S de j = Some (mglif_saved f m).
Proof.
  intros (O1 & O2 & O3 & O4 & O5 & O6 & O7) R E. unfold en_mglif in E. open_struct E.
  pose proof rt_point as P1. pose proof rt_anchor as P2. pose proof rt_glifcomponents as P3.
  pose proof rt_guideline as P4. pose proof rt_layer as P5. pose proof rt_rect as P6.
  apply (rt_vec_map en de f) in F0; [|assumption].
  unfold de_mglif. find_fields. next_field. rewrite F0. repeat next_field. reflexivity.
Qed.

Lemma de_mglif_ext {H} (de de' : json -> option H) j : (forall j', jdepth j' < jdepth j -> de j' = de' j') -> de_mglif S de j = de_mglif S de' j.
Proof.
  intros E. unfold de_mglif. destruct (source_of 12 j) as [s|] eqn:Q; [|reflexivity]. cbn [obind].
  apply obind_ext; [reflexivity|]. intros l. apply obind_ext; [|reflexivity].
  apply (req_ext 12 j); [assumption|]. intros j' L. apply de_vec_ext. intros j'' L'. apply E. lia.
Qed.
Lemma de_history_fuel f f' j : jdepth j < f -> jdepth j < f' -> de_history_in S f j = de_history_in S f' j.
Proof.
  revert f' j. induction f as [|f IH]; intros f' j L L'; [lia|]. destruct f' as [|f']; [lia|].
  cbn [de_history_in]. destruct (source_of 7 j) as [s|] eqn:Q; [|reflexivity]. cbn [obind].
  do 6 (apply obind_ext; [reflexivity|]; intros ?). apply obind_ext; [|reflexivity].
  apply (req_ext 7 j); [assumption|]. intros j' D. apply de_mglif_ext. intros j'' D'. apply IH; lia.
Qed.
Lemma de_history_step j : de_history S j =
  let? s := source_of 7 j in
  let? d := req s 0 "description" de_str in let? li := opt s 1 "layer_idx" (de_nat u64_bound) in
  let? ci := opt s 2 "contour_idx" (de_nat u64_bound) in let? pi := opt s 3 "point_idx" (de_nat u64_bound) in
  let? gl := req s 4 "guidelines" (de_vec (de_guideline S)) in
  let? sel := opt s 5 "selected" (de_set pair_eqb de_selected) in
  let? g := req s 6 "glyph" (de_mfekglif S) in
  Some (HEntry d li ci pi gl sel g).
Proof.
  unfold de_history at 1. cbn [de_history_in]. destruct (source_of 7 j) as [s|] eqn:Q; [|reflexivity]. cbn [obind].
  do 6 (apply obind_ext; [reflexivity|]; intros ?). apply obind_ext; [|reflexivity].
  apply (req_ext 7 j); [assumption|]. intros j' D. apply de_mglif_ext. intros j'' D'. apply de_history_fuel; lia.
Qed.
Lemma pair_eqb_eq a b : pair_eqb a b = true <-> a = b.
Proof.
  destruct a as [a1 a2], b as [b1 b2]. unfold pair_eqb. cbn [fst snd].
  rewrite andb_true_iff, !N.eqb_eq. split; [intros [-> ->]; reflexivity|intros [= -> ->]; auto].
Qed.
Lemma rt_selected : rt en_selected de_selected (fun s => a_u64 (fst s) /\ a_u64 (snd s)).
Proof.
  intros [a b] j [O1 O2] E. cbn [fst snd] in *. unfold en_selected in E. cbn [fst snd] in E. open_tuple E.
  unfold de_selected. lazy [obind]. repeat next_field. reflexivity.
Qed.
Lemma rt_history h j : history_ok S h -> en_history S h = Some j -> de_history S j = Some (history_saved h).
Proof.
  intros O. revert j. induction O as [d li ci pi gl sel m O1 O2 O3 O4 O5 O6 O7 IH]; intros j E.
  cbn [en_history] in E. open_struct E. rewrite de_history_step.
  apply (rt_mglif _ (de_history S) history_saved) in F5; [|assumption|intros h j Ih; now apply IH].
  change (de_mglif S (de_history S)) with (de_mfekglif S) in F5.
  pose proof rt_guideline as P1.
  pose proof (rt_set pair_eqb en_selected de_selected _ pair_eqb_eq rt_selected) as P2.
  remember (de_set pair_eqb de_selected) as u eqn:U.
  find_fields. do 5 next_field. 
  rewrite (rt_opt _ u _ sel _ P2); [| |exact O5|exact F4].
  - rewrite F5. reflexivity.
  - intros x j' _. apply en_vec_nonnull.
Qed.
Lemma rt_mfekglif m j : mfekglif_ok S m -> en_mfekglif S m = Some j -> de_mfekglif S j = Some (mfekglif_saved m).
Proof.
  intros [O1 O2] E. apply (rt_mglif (en_history S)); [assumption| |assumption].
  intros h j' Ih. rewrite Forall_forall in O2. now apply rt_history, O2.
Qed.
End Serde.

(** * What cannot be written *)

Definition total {A} (en : A -> option json) : Prop := forall x, en x <> None.

Lemma fields_none l : fields l = None <-> exists n, In (n, None) l.
Proof.
  induction l as [|[n v] l IH]; cbn [fields].
  - split; [discriminate|intros [n []]].
  - destruct v as [v|]; cbn [obind].
    + destruct (fields l) as [r|]; cbn [obind].
      * split; [discriminate|]. intros [m [H|H]]; [discriminate|].
        assert (X : Some r = None) by (apply IH; now exists m). discriminate X.
      * split; [|reflexivity]. intros _. destruct (proj1 IH eq_refl) as [m H]. exists m. now right.
    + split; [|reflexivity]. intros _. exists n. now left.
Qed.
Lemma jstruct_none l : jstruct l = None <-> exists n, In (n, None) l.
Proof.
  rewrite <- fields_none. unfold jstruct. destruct (fields l); cbn [obind]; split; congruence.
Qed.
Lemma jstruct_total l : Forall (fun e => snd e <> None) l -> jstruct l <> None.
Proof.
  intros H E. apply jstruct_none in E as [n I]. rewrite Forall_forall in H. now apply H in I.
Qed.
Lemma elements_none {A} (en : A -> option json) l : elements en l = None <-> exists x, In x l /\ en x = None.
Proof.
  induction l as [|x l IH].
  - split; [discriminate|intros (x & [] & _)].
  - rewrite elements_cons. destruct (en x) as [j|] eqn:E; cbn [obind].
    + destruct (elements en l) as [r|]; cbn [obind].
      * split; [discriminate|]. intros (y & [<-|I] & N); [congruence|].
        assert (X : Some r = None) by (apply IH; eauto). discriminate X.
      * split; [|reflexivity]. intros _. destruct (proj1 IH eq_refl) as (y & I & N). exists y. split; [now right|assumption].
    + split; [|reflexivity]. intros _. exists x. split; [now left|assumption].
Qed.
Lemma en_vec_none {A} (en : A -> option json) l : en_vec en l = None <-> exists x, In x l /\ en x = None.
Proof. rewrite <- elements_none. unfold en_vec. destruct (elements en l); cbn [obind]; split; congruence. Qed.
Lemma en_vec_total {A} (en : A -> option json) l : (forall x, In x l -> en x <> None) -> en_vec en l <> None.
Proof. intros H E. apply en_vec_none in E as (x & I & N). now apply (H x). Qed.
Lemma en_opt_total {A} (en : A -> option json) o : (forall x, o = Some x -> en x <> None) -> en_opt en o <> None.
Proof. intros H. destruct o as [x|]; [now apply H|discriminate]. Qed.
Lemma jnewtype_none n v : jnewtype n v = None <-> v = None.
Proof. unfold jnewtype. destruct v; cbn [obind]; split; congruence. Qed.

Ltac tot := repeat first
  [ assumption | match goal with H : total _ |- _ => apply H | H : forall x, _ <> None |- _ => apply H end
  | (rewrite jnewtype_none) | discriminate | (apply en_opt_total; intros ? _) | (apply en_vec_total; intros ? _)
  | (apply jstruct_total; repeat (apply Forall_cons; [cbn [snd]|]); [..|apply Forall_nil]) ].

Lemma en_handle_total : total en_handle.
Proof. intros [x y|]; discriminate. Qed.
Lemma en_affine_total : total en_affine.
Proof. intros m. discriminate. Qed.
Lemma en_vws_total : total en_vws.
Proof. intros v. unfold en_vws, en_vws_handle. tot. Qed.
Lemma en_dash_total : total en_dash.
Proof. intros v. unfold en_dash, en_cull. tot. Qed.

Section Written.
Context {PD PL : Type} (S : serdelib PD PL) (W : writable S).

Lemma en_point_total : total (en_point S).
Proof. destruct W as [W1 _]. pose proof en_handle_total. intros p. unfold en_point. tot. Qed.
Lemma en_qpoint_total : total (en_qpoint S).
Proof. destruct W as [W1 _]. pose proof en_handle_total. intros p. unfold en_qpoint. tot. Qed.
Lemma en_hpoint_total : total (en_hpoint S).
Proof. destruct W as [W1 _]. pose proof en_handle_total. intros p. unfold en_hpoint. tot. Qed.
Lemma en_anchor_total : total (en_anchor S).
Proof. destruct W as [W1 _]. intros p. unfold en_anchor. tot. Qed.
Lemma en_color_total : total (en_color S).
Proof. intros p. unfold en_color. tot. Qed.
Lemma en_guideline_total : total (en_guideline S).
Proof. destruct W as [W1 _]. pose proof en_color_total. intros p. unfold en_guideline. tot. Qed.
Lemma en_glifcomponents_total : total (en_glifcomponents S).
Proof. intros p. unfold en_glifcomponents, en_glifcomponent. tot. Qed.
Lemma en_rect_total : total en_rect.
Proof. intros p. unfold en_rect. tot. Qed.
Lemma en_image_none i : en_glifimage S i = None <-> exists n, i_filename i = NotUtf8 n.
Proof.
  pose proof en_color_total. destruct (i_filename i) as [s|s] eqn:F.
  - split; [|intros [n [=]]]. intros E. exfalso. revert E. unfold en_glifimage. rewrite F. cbn [en_osstr]. tot.
  - split; [intros _; eauto|]. intros _. unfold en_glifimage. apply jstruct_none. exists "filename". left. now rewrite F.
Qed.
Lemma en_lib_none l : en_lib S l = None <-> exists e, l = LXml e.
Proof.
  destruct W as [_ W2]. destruct l as [|d|e]; cbn [en_lib].
  - split; [discriminate|intros [e [=]]].
  - rewrite jnewtype_none. split; [intros H; now apply W2 in H|intros [e [=]]].
  - split; [eauto|reflexivity].
Qed.
Lemma en_glif_none g : en_glif S g = None <->
  (exists e, g_lib g = LXml e) \/ (exists i n, In i (g_images g) /\ i_filename i = NotUtf8 n).
Proof.
  pose proof en_point_total. pose proof en_anchor_total. pose proof en_glifcomponents_total. pose proof en_guideline_total.
  unfold en_glif. rewrite jstruct_none. split.
  - intros [n I]. cbn [In] in I.
    repeat match goal with
    | I : _ \/ _ |- _ => destruct I as [I|I]
    | I : (_, ?v) = (_, None) |- _ => injection I as _ I
    end. all: try (match goal with I : ?v = None |- _ => let Q := fresh in assert (Q : v <> None) by tot; exact (False_ind _ (Q I)) end). all: [> | | contradiction].
    + apply en_vec_none in I as (i & Ii & Ei). apply en_image_none in Ei as [m Em]. right. eauto.
    + apply en_lib_none in I. now left.
  - intros [E|(i & n & I & E)].
    + apply en_lib_none in E. exists "lib". rewrite E. cbn [In]. tauto.
    + exists "images". assert (V : en_vec (en_glifimage S) (g_images g) = None).
      { apply en_vec_none. exists i. split; [assumption|]. apply en_image_none. eauto. }
      rewrite V. cbn [In]. tauto.
Qed.

Lemma en_inner_total : total (en_inner S).
Proof.
  pose proof en_point_total. pose proof en_qpoint_total. pose proof en_hpoint_total.
  intros [l|l|l o]; cbn [en_inner]; tot.
Qed.
Lemma en_pap_total {C} (en : C -> option json) p : (forall c, In c (pp_pattern p) -> en c <> None) -> en_pap en p <> None.
Proof.
  intros H. apply en_vec_total in H. unfold en_pap.
  assert (A : en_subdivide (pp_subdivide p) <> None) by now destruct (pp_subdivide p).
  assert (B : en_culling (pp_prevent_overdraw p) <> None) by now destruct (pp_prevent_overdraw p).
  tot.
Qed.
End Written.

(** Induction over contours with patterns in them, and over histories. *)
Section Nested.
Context {PD : Type} (P : mcontour PD -> Prop).
Hypothesis Step : forall i o, (forall p c, o = Some (OpPap p) -> In c (pp_pattern p) -> P c) -> P (MC i o).
Fixpoint mcontour_nested (c : mcontour PD) : P c.
Proof.
  destruct c as [i o]. apply Step. intros p c E. destruct o as [[v|q|d]|]; try discriminate E.
  assert (Eq : q = p) by congruence. rewrite <- Eq. clear Eq E.
  destruct q as [pattern]. cbn [pp_pattern].
  induction pattern as [|x t IH]; [intros []|].
  intros [E|I]; [rewrite <- E; apply mcontour_nested|now apply IH].
Qed.
End Nested.
Section NestedHistory.
Context {PD : Type} (P : history PD -> Prop).
Hypothesis Step : forall d li ci pi gl sel m, (forall h, In h (mg_history m) -> P h) -> P (HEntry d li ci pi gl sel m).
Fixpoint history_nested (h : history PD) : P h.
Proof.
  destruct h as [d li ci pi gl sel m]. apply Step. destruct m as [ls hs]. cbn [mg_history].
  induction hs as [|x t IH]; [intros h []|].
  intros h [E|I]; [rewrite <- E; apply history_nested|now apply IH].
Qed.
End NestedHistory.

Section WrittenNested.
Context {PD PL : Type} (S : serdelib PD PL) (W : writable S).

Lemma en_mcontour_total : total (en_mcontour S).
Proof.
  intros c. induction c as [i o IH] using mcontour_nested. cbn [en_mcontour].
  assert (A : en_opt (en_operations (en_mcontour S)) o <> None).
  { destruct o as [[v|p|d]|]; cbn [en_opt en_operations]; [| | |discriminate].
    - rewrite jnewtype_none. pose proof en_vws_total. tot.
    - rewrite jnewtype_none. pose proof (en_pap_total (en_mcontour S) p (fun c => IH p c eq_refl)). tot.
    - rewrite jnewtype_none. pose proof en_dash_total. tot. }
  pose proof (en_inner_total S W). tot.
Qed.

Lemma en_layer_none l : en_layer S l = None <-> exists im n, In im (l_images l) /\ i_filename (fst im) = NotUtf8 n.
Proof.
  pose proof en_mcontour_total. pose proof (en_color_total S).
  set (en := fun im : glifimage * affine => jtuple [en_glifimage S (fst im); en_affine (snd im)]).
  assert (Q : forall im, en im = None <-> exists n, i_filename (fst im) = NotUtf8 n).
  { intros im. rewrite <- (en_image_none S). unfold en, jtuple. rewrite en_vec_none. split.
    - intros (x & [<-|[<-|[]]] & E); [assumption|]. now apply en_affine_total in E.
    - intros E. exists None. rewrite E. split; [now left|reflexivity]. }
  unfold en_layer. fold en. rewrite jstruct_none. split.
  - intros [n I]. cbn [In] in I.
    repeat match goal with
    | I : _ \/ _ |- _ => destruct I as [I|I]
    | I : (_, ?v) = (_, None) |- _ => injection I as _ I
    end. all: try (match goal with I : ?v = None |- _ => let Q := fresh in assert (Q : v <> None) by tot; exact (False_ind _ (Q I)) end). all: [> | contradiction].
    apply en_vec_none in I as (i & Ii & Ei). apply Q in Ei as [m Em]. eauto.
  - intros (im & n & I & E). exists "images".
    assert (V : en_vec en (l_images l) = None) by (apply en_vec_none; exists im; split; [assumption|apply Q; eauto]).
    rewrite V. cbn [In]. tauto.
Qed.
Lemma en_mglif_none {H} (en : H -> option json) m : en_mglif S en m = None <->
  (exists l im n, In l (mg_layers m) /\ In im (l_images l) /\ i_filename (fst im) = NotUtf8 n) \/
  (exists h, In h (mg_history m) /\ en h = None).
Proof.
  pose proof (en_point_total S W). pose proof (en_anchor_total S W). pose proof (en_glifcomponents_total S).
  pose proof (en_guideline_total S W). pose proof en_rect_total.
  unfold en_mglif. rewrite jstruct_none. split.
  - intros [n I]. cbn [In] in I.
    repeat match goal with
    | I : _ \/ _ |- _ => destruct I as [I|I]
    | I : (_, ?v) = (_, None) |- _ => injection I as _ I
    end. all: try (match goal with I : ?v = None |- _ => let Q := fresh in assert (Q : v <> None) by tot; exact (False_ind _ (Q I)) end). all: [> | | contradiction].
    + apply en_vec_none in I as (l & Il & El). apply en_layer_none in El as (im & k & I2 & E2). left. eauto 7.
    + apply en_vec_none in I. now right.
  - intros [(l & im & n & I1 & I2 & E)|E].
    + exists "layers". assert (V : en_vec (en_layer S) (mg_layers m) = None).
      { apply en_vec_none. exists l. split; [assumption|]. apply en_layer_none. eauto. }
      rewrite V. cbn [In]. tauto.
    + exists "history". apply en_vec_none in E. rewrite E. cbn [In]. tauto.
Qed.
Lemma en_history_none h : en_history S h = None <->
  exists d li ci pi gl sel m, h = HEntry d li ci pi gl sel m /\ unwritable_image m.
Proof.
  induction h as [d li ci pi gl sel m IH] using history_nested. cbn [en_history].
  pose proof (en_guideline_total S W) as G. rewrite jstruct_none. split.
  - intros [n I]. cbn [In] in I.
    repeat match goal with
    | I : _ \/ _ |- _ => destruct I as [I|I]
    | I : (_, ?v) = (_, None) |- _ => injection I as _ I
    end. all: try (match goal with I : ?v = None |- _ => let Q := fresh in assert (Q : v <> None) by tot; exact (False_ind _ (Q I)) end). all: [> | contradiction].
    do 7 eexists. split; [reflexivity|].
    apply en_mglif_none in I as [(l & im & k & I1 & I2 & E)|(h & Ih & Eh)].
    + now apply (image_here m l im k).
    + apply (IH h Ih) in Eh as (d' & li' & ci' & pi' & gl' & sel' & m' & -> & U).
      now apply (image_in_history m d' li' ci' pi' gl' sel' m').
  - intros (d' & li' & ci' & pi' & gl' & sel' & m' & [= <- <- <- <- <- <- <-] & U).
    exists "glyph". assert (V : en_mglif S (en_history S) m = None).
    { apply en_mglif_none. inversion U as [? l im k I1 I2 E|? ? ? ? ? ? ? m'' Ih U']; subst.
      - left. eauto 7.
      - right. eexists. split; [exact Ih|]. apply (IH _ Ih). do 7 eexists. split; [reflexivity|assumption]. }
    rewrite V. cbn [In]. tauto.
Qed.
Lemma en_mfekglif_none m : en_mfekglif S m = None <-> unwritable_image m.
Proof.
  unfold en_mfekglif. rewrite en_mglif_none. split.
  - intros [(l & im & k & I1 & I2 & E)|(h & Ih & Eh)].
    + now apply (image_here m l im k).
    + apply en_history_none in Eh as (d' & li' & ci' & pi' & gl' & sel' & m' & -> & U).
      now apply (image_in_history m d' li' ci' pi' gl' sel' m').
  - intros U. inversion U as [? l im k I1 I2 E|? ? ? ? ? ? ? m'' Ih U']; subst.
    + left. eauto 7.
    + right. eexists. split; [exact Ih|]. apply en_history_none. do 7 eexists. split; [reflexivity|assumption].
Qed.
End WrittenNested.

(** * What cannot be read back *)

Lemma f32_back x j y : en_f32 x = Some j -> de_f32 j = Some y -> is_finite x = true.
Proof. unfold en_f32. destruct (is_finite x); [reflexivity|]. intros [= <-]. discriminate. Qed.
Lemma elements_back {A B} (en : A -> option json) (de : json -> option B) l r l' x :
  elements en l = Some r -> all_of de r = Some l' -> In x l -> exists j y, en x = Some j /\ de j = Some y.
Proof.
  revert r l'. induction l as [|a l IH]; intros r l' E D; [intros []|].
  rewrite elements_cons in E. destruct (en a) as [j|] eqn:Ea; [|discriminate]. cbn [obind] in E.
  destruct (elements en l) as [t|] eqn:Et; [|discriminate]. injection E as <-. cbn [all_of] in D.
  destruct (de j) as [y|] eqn:Dj; [|discriminate]. cbn [obind] in D.
  destruct (all_of de t) as [u|] eqn:Du; [|discriminate].
  intros [<-|I]; [eauto|]. exact (IH t u eq_refl Du I).
Qed.
Lemma vec_back {A B} (en : A -> option json) (de : json -> option B) l j l' x :
  en_vec en l = Some j -> de_vec de j = Some l' -> In x l -> exists j y, en x = Some j /\ de j = Some y.
Proof.
  unfold en_vec. destruct (elements en l) as [r|] eqn:E; [|discriminate]. intros [= <-] D. now apply (elements_back en de l r l').
Qed.
Lemma opt_back {A B} (en : A -> option json) (de : json -> option B) x j o :
  en_opt en (Some x) = Some j -> de_opt de j = Some o -> (forall j, en x = Some j -> j <> JNull) ->
  exists j y, en x = Some j /\ de j = Some y.
Proof.
  cbn [en_opt]. intros E D N. specialize (N j E). exists j. unfold de_opt in D.
  destruct (de j) as [y|] eqn:Dj; [eauto|]. destruct j; try discriminate. easy.
Qed.
Lemma handle_back h j h' : en_handle h = Some j -> de_handle j = Some h' ->
  forall x y, h = At x y -> is_finite x = true /\ is_finite y = true.
Proof.
  intros E D x y ->. cbn [en_handle] in E. unfold jtuple, en_vec in E. rewrite !elements_cons in E. cbn [elements] in E.
  destruct (en_f32 x) as [jx|] eqn:Ex; [|discriminate]. cbn [obind] in E.
  destruct (en_f32 y) as [jy|] eqn:Ey; [|discriminate]. cbn [obind] in E.
  unfold jnewtype in E. cbn [obind] in E. injection E as <-.
  unfold de_handle in D. cbn [variant obind] in D. change (str_eqb (lit "At") (lit "At")) with true in D. cbn iota in D.
  destruct (de_f32 jx) eqn:Dx; [|discriminate]. cbn [obind] in D. destruct (de_f32 jy) eqn:Dy; [|discriminate].
  split; [now apply (f32_back x jx f)|now apply (f32_back y jy f0)].
Qed.
Ltac find_fields_in D :=
  lazy [req opt dflt source_of field lookup lit map list_ascii_of_string str_eqb
        Ascii.N_of_ascii Ascii.N_of_digits N.add N.mul N.eqb Pos.eqb Pos.add Pos.mul Pos.succ andb
        obind] in D.
Ltac some_field D :=
  match type of D with
  | match ?t with Some _ => _ | None => None end = Some _ => let R := fresh "R" in destruct t eqn:R; [|discriminate D]
  end.

Section Back.
Context {PD PL : Type} (S : serdelib PD PL).

Lemma point_back p j q : en_point S p = Some j -> de_point S j = Some q ->
  is_finite (px p) = true /\ is_finite (py p) = true /\
  (forall x y, pa p = At x y \/ pb p = At x y -> is_finite x = true /\ is_finite y = true).
Proof.
  intros E D. unfold en_point in E. open_struct E. unfold de_point in D. find_fields_in D. repeat some_field D.
  split; [eauto using f32_back|]. split; [eauto using f32_back|].
  intros x y [H|H]; [apply (handle_back _ _ _ F1 R1)|apply (handle_back _ _ _ F2 R2)]; assumption.
Qed.
Lemma anchor_back a j b : en_anchor S a = Some j -> de_anchor S j = Some b ->
  is_finite (an_x a) = true /\ is_finite (an_y a) = true.
Proof.
  intros E D. unfold en_anchor in E. open_struct E. unfold de_anchor in D. find_fields_in D. repeat some_field D.
  split; eauto using f32_back.
Qed.
Lemma guideline_back a j b : en_guideline S a = Some j -> de_guideline S j = Some b ->
  is_finite (gl_x a) = true /\ is_finite (gl_y a) = true.
Proof.
  intros E D. unfold en_guideline in E.
  destruct (jstruct [("x", _); ("y", _)]) as [at_|] eqn:A; [|discriminate]. open_struct E.
  unfold de_guideline in D. find_fields_in D. some_field D.
  open_struct A. unfold de_guideline_point in R. find_fields_in R. repeat some_field R. split; eauto using f32_back.
Qed.
Lemma glif_back g j g' x : en_glif S g = Some j -> de_glif S j = Some g' -> coordinate g x -> is_finite x = true.
Proof.
  intros E D C. unfold en_glif in E. open_struct E. unfold de_glif in D. find_fields_in D. some_field D. some_field D. some_field D. some_field D.
  destruct C as [o0 c p x Eo Ic Ip H|a x Ia H|l9 x Il H].
  - rewrite Eo in F. destruct (opt_back _ _ _ _ _ F R) as (k1 & y1 & V & V').
    { intros j'. apply en_vec_nonnull. }
    destruct (vec_back _ _ _ _ _ c V V' Ic) as (k2 & y2 & V2 & V2').
    destruct (vec_back _ _ _ _ _ p V2 V2' Ip) as (k3 & y3 & V3 & V3').
    destruct (point_back _ _ _ V3 V3') as (P1 & P2 & P3).
    destruct H as [->|[->|(y & [H|[H|[H|H]]])]]; try assumption;
      [apply (P3 x y)|apply (P3 y x)|apply (P3 x y)|apply (P3 y x)]; tauto.
  - destruct (vec_back _ _ _ _ _ a F0 R0 Ia) as (k2 & y2 & V2 & V2').
    destruct (anchor_back _ _ _ V2 V2'). destruct H as [->| ->]; assumption.
  - destruct (vec_back _ _ _ _ _ l9 F2 R2 Il) as (k2 & y2 & V2 & V2').
    destruct (guideline_back _ _ _ V2 V2'). destruct H as [->| ->]; assumption.
Qed.
End Back.
