(** Proofs about control-free strings. *)
Require Import Coq.Lists.List Coq.NArith.NArith Coq.Bool.Bool Coq.Arith.Arith Coq.micromega.Lia Coq.micromega.ZifyBool.
Require Import Verif.Model.Base Verif.Model.Text Verif.Model.Strings Verif.Spec.TextSpec.
Import ListNotations.
Local Open Scope N_scope.

Lemma is_ascii_control_spec c : is_ascii_control c = true <-> control c.
Proof. unfold is_ascii_control, control. destruct (N.leb_spec c 31), (N.eqb_spec c 127); cbn; split; intros; try lia; auto; discriminate. Qed.
Lemma is_ascii_control_false c : is_ascii_control c = false <-> ~ control c.
Proof. rewrite <- is_ascii_control_spec. destruct (is_ascii_control c); split; congruence. Qed.

Lemma find_position_none s :
  (forall c, In c s -> ~ control c) -> find_position is_ascii_control s = None.
Proof.
  induction s as [|c s IH]; intros H; [reflexivity|]. cbn [find_position].
  rewrite (proj2 (is_ascii_control_false c)) by (apply H; now left).
  rewrite IH; [reflexivity|]. intros d Hd. apply H. now right.
Qed.

Lemma find_position_app pre c post :
  (forall d, In d pre -> ~ control d) -> control c ->
  find_position is_ascii_control (pre ++ c :: post) = Some (length pre, c).
Proof.
  induction pre as [|d pre IH]; intros H Hc; cbn [app find_position length].
  - now rewrite (proj2 (is_ascii_control_spec c)).
  - rewrite (proj2 (is_ascii_control_false d)) by (apply H; now left).
    rewrite IH; [reflexivity| |assumption]. intros e He. apply H. now right.
Qed.

Lemma glif_string_ok s : (forall c, In c s -> ~ control c) -> glif_string s = Ok s.
Proof. intros H. unfold glif_string. now rewrite find_position_none. Qed.

Lemma glif_string_err pre c post :
  (forall d, In d pre -> ~ control d) -> control c ->
  glif_string (pre ++ c :: post) = Err (EControlChar (length pre) c).
Proof. intros H Hc. unfold glif_string. now rewrite find_position_app. Qed.

(** First control character, if any. *)
Lemma control_split s :
  (forall c, In c s -> ~ control c) \/
  exists pre c post, s = pre ++ c :: post /\ (forall d, In d pre -> ~ control d) /\ control c.
Proof.
  induction s as [|x s [IH|(pre & c & post & -> & Hp & Hc)]].
  - left. now intros c [].
  - destruct (is_ascii_control x) eqn:E.
    + right. exists [], x, s. split; [reflexivity|]. split; [now intros d []|]. now apply is_ascii_control_spec.
    + left. intros c [->|H]; [now apply is_ascii_control_false|auto].
  - right. destruct (is_ascii_control x) eqn:E.
    + exists [], x, (pre ++ c :: post). split; [reflexivity|]. split; [now intros d []|].
      now apply is_ascii_control_spec.
    + exists (x :: pre), c, post. split; [reflexivity|]. split; [|assumption].
      intros d [->|H]; [now apply is_ascii_control_false|auto].
Qed.

Lemma glif_string_exact s t :
  glif_string s = Ok t <-> t = s /\ forall c, In c s -> ~ control c.
Proof.
  split.
  - intros H. destruct (control_split s) as [Hs|(pre & c & post & -> & Hp & Hc)].
    + rewrite glif_string_ok in H by assumption. split; [congruence|assumption].
    + rewrite glif_string_err in H by assumption. discriminate.
  - intros [-> H]. now apply glif_string_ok.
Qed.

Lemma glif_string_len_one_ok s :
  s <> [] -> (forall c, In c s -> ~ control c) -> glif_string_len_one s = Ok s.
Proof. intros Hs H. unfold glif_string_len_one. rewrite glif_string_ok by assumption. cbn. now destruct s. Qed.

Lemma glif_string_len_one_exact s t :
  glif_string_len_one s = Ok t <-> t = s /\ s <> [] /\ forall c, In c s -> ~ control c.
Proof.
  unfold glif_string_len_one. split.
  - destruct (glif_string s) as [u|e|] eqn:E; cbn; intros H; try discriminate.
    apply glif_string_exact in E as [-> Hs]. destruct s; [discriminate|].
    injection H as <-. repeat split; [discriminate|assumption].
  - intros (-> & Hne & H). now apply glif_string_len_one_ok.
Qed.

(** Removal by byte position. *)
Lemma utf8_len_ascii c : ascii c -> utf8_len c = 1%nat.
Proof. unfold ascii, utf8_len. destruct (N.ltb_spec c 128); lia. Qed.
Lemma utf8_len_non_ascii c : ~ ascii c -> (2 <= utf8_len c)%nat.
Proof. unfold ascii, utf8_len. destruct (N.ltb_spec c 128), (N.ltb_spec c 2048), (N.ltb_spec c 65536); lia. Qed.

Lemma remove_byte_ascii pre c post :
  (forall d, In d pre -> ascii d) -> remove_byte (length pre) (pre ++ c :: post) = Ok (pre ++ post).
Proof.
  induction pre as [|d pre IH]; intros H; [reflexivity|].
  cbn [app length remove_byte]. rewrite (utf8_len_ascii d) by (apply H; now left).
  cbn [Nat.leb]. rewrite Nat.sub_succ, Nat.sub_0_r. rewrite IH; [reflexivity|].
  intros e He. apply H. now right.
Qed.

Lemma without_controls_app a b : without_controls (a ++ b) = without_controls a ++ without_controls b.
Proof. unfold without_controls. apply filter_app. Qed.
Lemma without_controls_id s : (forall c, In c s -> ~ control c) -> without_controls s = s.
Proof.
  induction s as [|c s IH]; intros H; [reflexivity|]. unfold without_controls in *. cbn [filter].
  assert (~ control c) as Hc by (apply H; now left). unfold control in Hc.
  destruct (N.ltb_spec c 32), (N.eqb_spec c 127); cbn; try lia.
  rewrite IH; [reflexivity|]. intros d Hd. apply H. now right.
Qed.
Lemma without_controls_ctrl c s : control c -> without_controls (c :: s) = without_controls s.
Proof.
  unfold control, without_controls. cbn [filter].
  destruct (N.ltb_spec c 32), (N.eqb_spec c 127); cbn; intros; try lia; reflexivity.
Qed.

Lemma cbna_remove pre c post :
  controls_before_non_ascii (pre ++ c :: post) -> controls_before_non_ascii (pre ++ post).
Proof.
  intros H p2 c2 q2 E Hc2 d Hd.
  (* position of c2 in pre ++ post *)
  apply app_eq_app in E as [l [[-> E]|[-> E]]].
  - destruct l as [|x l]; cbn in E; [subst post|injection E as <- E].
    + rewrite app_nil_r in H. apply (H (p2 ++ [c]) c2 q2).
      * now rewrite <- app_assoc.
      * assumption.
      * apply in_or_app. now left.
    + subst. apply (H p2 c2 (l ++ c :: post)); [now rewrite <- app_assoc|assumption..].
  - subst post. apply (H (pre ++ c :: l) c2 q2); [now rewrite <- app_assoc|assumption|].
    apply in_app_or in Hd as [Hd|Hd]; apply in_or_app; [now left|right; now right].
Qed.

Lemma to_glif_string_loop_good fuel : forall s,
  (length s <= fuel)%nat -> controls_before_non_ascii s ->
  to_glif_string_loop fuel s = Some (Ok (without_controls s)).
Proof.
  induction fuel as [|fuel IH]; intros s Hlen H;
    (destruct (control_split s) as [Hs|(pre & c & post & -> & Hp & Hc)];
     [ cbn [to_glif_string_loop]; rewrite glif_string_ok, without_controls_id by assumption; reflexivity |]).
  - rewrite app_length in Hlen. cbn in Hlen. lia.
  - cbn [to_glif_string_loop]. rewrite glif_string_err by assumption.
    rewrite remove_byte_ascii by (intros d Hd; eapply H; eauto).
    rewrite IH.
    + now rewrite !without_controls_app, (without_controls_ctrl c post) by assumption.
    + rewrite app_length in *. cbn in Hlen. lia.
    + now apply cbna_remove in H.
Qed.

(** With a non-ASCII character before a control character the loop removes ordinary
    characters until a byte position falls inside that character. *)
Lemma remove_byte_prefix p u l i : forall r,
  (forall d, In d p -> ascii d) ->
  (length p < i)%nat ->
  remove_byte i (p ++ u :: l) = r ->
  (i < length p + utf8_len u)%nat /\ r = Panic \/
  (length p + utf8_len u <= i)%nat /\
    r = (let* t := remove_byte (i - length p - utf8_len u) l in Ok (p ++ u :: t)).
Proof.
  revert i. induction p as [|d p IH]; intros i r Hp Hi E; cbn [app length] in *.
  - destruct i as [|i]; [lia|]. cbn [remove_byte] in E.
    destruct (Nat.leb_spec (utf8_len u) (S i)) as [Hl|Hl].
    + right. split; [lia|]. rewrite <- E, Nat.sub_0_r. reflexivity.
    + left. split; [lia|now symmetry].
  - destruct i as [|i]; [lia|]. cbn [remove_byte] in E.
    rewrite (utf8_len_ascii d) in E by (apply Hp; now left). cbn [Nat.leb] in E.
    rewrite Nat.sub_succ, Nat.sub_0_r in E.
    destruct (IH i (remove_byte i (p ++ u :: l))) as [[H1 H2]|[H1 H2]]; [| lia | reflexivity| |].
    + intros e He. apply Hp. now right.
    + left. split; [lia|]. rewrite H2 in E. now rewrite <- E.
    + right. split; [lia|]. rewrite H2 in E.
      replace (S i - S (length p) - utf8_len u)%nat with (i - length p - utf8_len u)%nat by lia.
      rewrite <- E. now destruct (remove_byte _ l).
Qed.

(** Removing inside [l ++ c :: post] at a byte position below [length l] (or panicking) takes
    one character out of [l]. *)
Lemma remove_byte_inside l c post : forall i,
  (i < length l)%nat ->
  remove_byte i (l ++ c :: post) = Panic \/
  exists l', remove_byte i (l ++ c :: post) = Ok (l' ++ c :: post) /\ S (length l') = length l /\
             (forall d, In d l' -> In d l).
Proof.
  induction l as [|x l IH]; intros i Hi; cbn [length] in Hi; [lia|].
  cbn [app remove_byte]. destruct i as [|i].
  - right. exists l. split; [reflexivity|]. split; [reflexivity|]. intros d Hd. now right.
  - destruct (Nat.leb_spec (utf8_len x) (S i)) as [Hl|Hl]; [|now left].
    assert (1 <= utf8_len x)%nat by (unfold utf8_len; destruct (x <? 128), (x <? 2048), (x <? 65536); lia).
    destruct (IH (S i - utf8_len x)%nat) as [E|(l' & E & Hn & Hin)]; [lia| |].
    + left. now rewrite E.
    + right. rewrite E. exists (x :: l'). split; [reflexivity|]. split; [cbn; lia|].
      intros d [->|Hd]; [now left|right; auto].
Qed.

Lemma to_glif_string_loop_bad n : forall fuel p u l c post,
  length l = n ->
  (length l <= fuel)%nat ->
  (forall d, In d p -> ascii d) -> ~ ascii u ->
  (forall d, In d p -> ~ control d) -> ~ control u -> (forall d, In d l -> ~ control d) -> control c ->
  to_glif_string_loop fuel (p ++ u :: l ++ c :: post) = Some Panic.
Proof.
  induction n as [|n IH]; intros fuel p u l c post Hn Hf Hp Hu Hpc Huc Hlc Hc.
  - destruct l; [|discriminate]. cbn [app].
    assert (glif_string (p ++ u :: c :: post) = Err (EControlChar (length (p ++ [u])) c)) as E.
    { rewrite <- (glif_string_err (p ++ [u]) c post); [now rewrite <- app_assoc| |assumption].
      intros d Hd. apply in_app_or in Hd as [Hd|[->|[]]]; auto. }
    destruct fuel; cbn [to_glif_string_loop]; rewrite E; rewrite app_length, Nat.add_comm; cbn [length Nat.add];
    (destruct (remove_byte_prefix p u (c :: post) (S (length p)) _ Hp (Nat.lt_succ_diag_r _) eq_refl)
       as [[H1 H2]|[H1 H2]]; [now rewrite H2|]; pose proof (utf8_len_non_ascii u Hu); lia).
  - destruct l as [|x l0]; [discriminate|]. set (l := x :: l0) in *.
    assert (glif_string (p ++ u :: l ++ c :: post) = Err (EControlChar (length (p ++ u :: l)) c)) as E.
    { rewrite <- (glif_string_err (p ++ u :: l) c post); [now rewrite <- app_assoc| |assumption].
      intros d Hd. apply in_app_or in Hd as [Hd|[->|Hd]]; auto. }
    destruct fuel as [|fuel]; [unfold l in Hf; cbn in Hf; lia|].
    cbn [to_glif_string_loop]. rewrite E.
    assert (length p < length (p ++ u :: l))%nat as Hlt by (rewrite app_length; cbn; lia).
    destruct (remove_byte_prefix p u (l ++ c :: post) (length (p ++ u :: l)) _ Hp Hlt eq_refl)
      as [[H1 H2]|[H1 H2]]; rewrite H2; [reflexivity|].
    pose proof (utf8_len_non_ascii u Hu).
    destruct (remove_byte_inside l c post (length (p ++ u :: l) - length p - utf8_len u)%nat)
      as [E2|(l' & E2 & Hl' & Hin)].
    { rewrite app_length. cbn [length]. lia. }
    + now rewrite E2.
    + rewrite E2. cbn [bind]. apply IH; auto; lia.
Qed.

Lemma first_non_ascii pre :
  (exists d, In d pre /\ ~ ascii d) ->
  exists p u l, pre = p ++ u :: l /\ (forall d, In d p -> ascii d) /\ ~ ascii u.
Proof.
  induction pre as [|x pre IH]; intros (d & Hd & Hn); [destruct Hd|].
  destruct (N.ltb_spec x 128) as [Hx|Hx].
  - destruct Hd as [->|Hd]; [unfold ascii in Hn; lia|].
    destruct (IH (ex_intro _ d (conj Hd Hn))) as (p & u & l & -> & Hp & Hu).
    exists (x :: p), u, l. split; [reflexivity|]. split; [|assumption]. intros e [->|He]; [exact Hx|auto].
  - exists [], x, pre. split; [reflexivity|]. split; [now intros e []|unfold ascii; lia].
Qed.

Lemma all_ascii_dec (s : str) : (forall d, In d s -> ascii d) \/ exists d, In d s /\ ~ ascii d.
Proof.
  induction s as [|x s [IH|(d & Hd & Hn)]].
  - left. now intros d [].
  - destruct (N.ltb_spec x 128) as [Hx|Hx].
    + left. intros d [->|Hd]; [exact Hx|auto].
    + right. exists x. split; [now left|unfold ascii; lia].
  - right. exists d. split; [now right|assumption].
Qed.

Lemma to_glif_string_loop_panic fuel : forall s pre c post,
  (length s <= fuel)%nat -> s = pre ++ c :: post -> control c -> (exists d, In d pre /\ ~ ascii d) ->
  to_glif_string_loop fuel s = Some Panic.
Proof.
  induction fuel as [|fuel IH]; intros s pre c post Hlen Es Hc Hd.
  { subst s. rewrite app_length in Hlen. cbn in Hlen. lia. }
  destruct (control_split s) as [Hs|(p1 & c1 & q1 & E1 & Hp1 & Hc1)].
  { exfalso. apply (Hs c); [|assumption]. subst s. apply in_or_app. right. now left. }
  destruct (all_ascii_dec p1) as [Ha|Hna].
  - (* the first control character is removed correctly; a bad one remains *)
    cbn [to_glif_string_loop]. rewrite E1, glif_string_err by assumption.
    rewrite remove_byte_ascii by assumption.
    assert (length (p1 ++ q1) <= fuel)%nat as Hl by (rewrite E1 in Hlen; rewrite app_length in *; cbn [length] in *; lia).
    rewrite Es in E1. destruct Hd as (d & Hd & Hn).
    apply app_eq_app in E1 as [l [[-> E1]|[-> E1]]].
    + destruct l as [|x l]; cbn in E1.
      * rewrite app_nil_r in Hd. exfalso. apply Hn. now apply Ha.
      * injection E1 as <- ->. apply (IH _ (p1 ++ l) c post); [assumption| now rewrite <- app_assoc|assumption|].
        apply in_app_or in Hd as [Hd|[->|Hd]].
        -- exfalso. apply Hn. now apply Ha.
        -- exfalso. apply Hn. unfold control, ascii in *. lia.
        -- exists d. split; [apply in_or_app; now right|assumption].
    + exfalso. apply Hn. apply Ha. apply in_or_app. now left.
  - destruct (first_non_ascii p1 Hna) as (p & u & l & -> & Hp & Hu).
    rewrite E1, <- app_assoc. cbn [app].
    apply (to_glif_string_loop_bad (length l)); auto.
    + rewrite E1 in Hlen. rewrite !app_length in Hlen. cbn [length] in Hlen. lia.
    + intros d Hd'. apply Hp1. apply in_or_app. now left.
    + apply Hp1. apply in_or_app. right. now left.
    + intros d Hd'. apply Hp1. apply in_or_app. right. now right.
Qed.

Lemma to_glif_string_good s :
  controls_before_non_ascii s -> to_glif_string s = Some (Ok (without_controls s)).
Proof. intros H. unfold to_glif_string. now apply to_glif_string_loop_good. Qed.

Lemma to_glif_string_panic pre c post :
  control c -> (exists d, In d pre /\ ~ ascii d) -> to_glif_string (pre ++ c :: post) = Some Panic.
Proof. intros. eapply to_glif_string_loop_panic; eauto. Qed.
