Require Import Coq.Lists.List Coq.Arith.Arith Coq.Bool.Bool Coq.micromega.Lia.
Require Import Verif.Model.Base Verif.Model.Float Verif.Model.Num Verif.Model.Point Verif.Model.Contour Verif.Model.Reverse Verif.Model.Refigure
  Verif.Model.Mpoint Verif.Model.Interop Verif.Spec.ContourSpec Verif.Spec.OutlineSpec Verif.Spec.SessionSpec Verif.Facts.ContourFacts Verif.Facts.RefigureFacts Verif.Facts.CreateFacts Verif.Facts.DrawnFacts
  Verif.Props.PropsContour Verif.Props.PropsPen.
Require Verif.Spec.EditSpec.
Import ListNotations.
Local Open Scope nat_scope.

Section Session.
Context {PD : Type}.
Implicit Types (c : list (point PD)) (o : list (list (point PD))).

(** What an edit does to the contour at [i]. *)
Definition act (dbg : bool) (e : session_edit) (i : nat) c : res (list (point PD)) :=
  match e with
  | ReverseAll => to_reversed dbg c
  | ReverseOne k => if k =? i then to_reversed dbg c else Ok c
  | RefigureAll => refigure c
  | RefigureOne k => if k =? i then refigure c else Ok c
  | RoundAll => Ok (map round_to_int c)
  | ChangeAt k j ch => if k =? i then at_place c j (fun p => Ok (change_cubic ch p)) else Ok c
  end.

Lemma at_some {A} (l : list A) i : i < length l -> exists a, nth_error l i = Some a.
Proof. intros H. destruct (nth_error l i) as [a|] eqn:E; [eauto|]. apply nth_error_None in E. lia. Qed.

Lemma at_place_ok {A} (v : list A) i f v' : at_place v i f = Ok v' <->
  exists a a', nth_error v i = Some a /\ f a = Ok a' /\ v' = set_nth v i a'.
Proof.
  unfold at_place, idx. split.
  - destruct (nth_error v i) as [a|] eqn:E; [|discriminate]. cbn [bind]. destruct (f a) as [a'| |] eqn:F; cbn [bind]; try discriminate.
    intros H. injection H as <-. eauto.
  - intros (a & a' & -> & E & ->). cbn [bind]. now rewrite E.
Qed.

Lemma Forall2_at {A B} (R : A -> B -> Prop) l l' : Forall2 R l l' -> length l = length l' /\
  forall i a, nth_error l i = Some a -> exists b, nth_error l' i = Some b /\ R a b.
Proof.
  induction 1 as [|a b l l' Hab _ [IH1 IH2]]; [split; [reflexivity|intros [|i] a; discriminate]|].
  split; [cbn; congruence|]. intros [|i] x; cbn; [intros E; injection E as <-; eauto|apply IH2].
Qed.

Lemma performed dbg o e o' : perform dbg o e = Ok o' -> length o = length o' /\
  forall i c, nth_error o i = Some c -> exists c', nth_error o' i = Some c' /\ act dbg e i c = Ok c'.
Proof.
  assert (forall k f, at_place o k f = Ok o' -> length o = length o' /\
    forall i c, nth_error o i = Some c -> exists c', nth_error o' i = Some c' /\ (if k =? i then f c else Ok c) = Ok c') as Hat.
  { intros k f H. apply at_place_ok in H as (a & a' & Ha & Hf & ->). split; [symmetry; apply set_nth_length|]. intros i c Hc. rewrite set_nth_error.
    assert (i < length o) as Hi by (apply nth_error_Some; congruence).
    destruct (Nat.eqb_spec k i) as [->|N].
    - rewrite Hc in Ha. injection Ha as ->. exists a'. split; [|exact Hf]. rewrite Nat.eqb_refl. cbn [andb]. apply Nat.ltb_lt in Hi. now rewrite ?Hi.
    - exists c. split; [|reflexivity]. destruct (Nat.eqb_spec i k); [congruence|]. exact Hc. }
  destruct e as [|k| |k| |k j ch]; cbn [perform act]; intros H.
  - apply C84_reversed_each in H. exact (Forall2_at _ _ _ H).
  - exact (Hat k _ H).
  - apply mapM_ok in H. exact (Forall2_at _ _ _ H).
  - exact (Hat k _ H).
  - injection H as <-. unfold outline_round_to_int. split; [symmetry; apply map_length|]. intros i c Hc. exists (map round_to_int c). split; [|reflexivity].
    rewrite nth_error_map, Hc. reflexivity.
  - exact (Hat k _ H).
Qed.

Lemma changed_point ch (p : point PD) : pptype (change_cubic ch p) = pptype p.
Proof. unfold change_cubic. destruct ch as [s|b|w h|w|w x y|x y|x y]; cbn; try reflexivity; destruct w; reflexivity. Qed.

Definition types c := map pptype c.
Lemma form_types c c' : types c = types c' -> cubic_contour_form c -> cubic_contour_form c'.
Proof.
  intros E (p & t & -> & Hp & Ht). destruct c' as [|p' t']; [discriminate|]. cbn in E. injection E as E1 E2. exists p', t'. split; [reflexivity|]. rewrite <- E1. split.
  - destruct Hp as [[Hp N]|Hp]; [left; split; [exact Hp|]|tauto]. intros ->. destruct t; [now apply N|discriminate].
  - clear - E2 Ht. revert t' E2. induction Ht as [|q t Hq _ IH]; intros [|q' t'] E; try discriminate; [constructor|]. cbn in E. injection E as E1 E2. constructor; [congruence|now apply IH].
Qed.
Lemma opened_types c c' : types c = types c' -> (opened c <-> opened c').
Proof.
  assert (forall a b, types a = types b -> opened a -> opened b) as H.
  { intros a b E (p & q & t & -> & Hp). destruct b as [|p' [|q' t']]; try discriminate. cbn in E. injection E as E1 _ _. exists p', q', t'. split; [reflexivity|congruence]. }
  intros E. split; apply H; congruence.
Qed.

Lemma changed_types c j ch c' : at_place c j (fun p => Ok (change_cubic ch p)) = Ok c' -> types c = types c'.
Proof.
  intros H. apply at_place_ok in H as (p & p' & Hp & E & ->). injection E as <-. unfold types. revert j Hp.
  induction c as [|q c IH]; intros [|j] Hp; cbn in *; try discriminate; [injection Hp as ->; now rewrite changed_point|f_equal; now apply IH].
Qed.

Lemma form_length c : cubic_contour_form c -> length c = 1 \/ 2 <= length c.
Proof. intros (p & t & -> & _). destruct t; cbn; lia. Qed.

Lemma refigured_form c c' : 2 <= length c -> refigure c = Ok c' ->
  length c' = length c /\ cubic_contour_form c' /\ (opened c <-> opened c').
Proof.
  intros Hn H. destruct (refigure_types c c' Hn H) as (Hl & _ & Hk & Hop & Hcl). split; [exact Hl|].
  assert (forall i q, nth_error c' (S i) = Some q -> pptype q = Line \/ pptype q = Curve) as Htl.
  { intros i q Hq. destruct (at_some c' i) as [p Hp]; [apply Nat.lt_succ_l, nth_error_Some; congruence|]. rewrite (Hk i q p Hp Hq). unfold kind_of. destruct (pa p), (pb q); auto. }
  destruct c' as [|p' [|q' t']]; [cbn in Hl; lia|cbn in Hl; lia|].
  destruct (at_some c (length c - 1)) as [l Hlast]; [lia|].
  assert (closed c -> pptype p' = Line \/ pptype p' = Curve) as Hc1.
  { intros Hc. rewrite (Hcl Hc p' l eq_refl Hlast). unfold kind_of. destruct (pa l), (pb p'); auto. }
  split.
  - exists p', (q' :: t'). split; [reflexivity|]. split.
    + destruct (open_or_closed c Hn) as [Ho|Hc]; [left; split; [now apply Hop|discriminate]|right; auto].
    + apply Forall_forall. intros q Hq. apply In_nth_error in Hq as (i & Hi). now apply (Htl i).
  - destruct (open_or_closed c Hn) as [Ho|Hc].
    + split; [intros _|auto]. exists p', q', t'. split; [reflexivity|now apply Hop].
    + split; [intros (a & b & r & E & Hm); destruct Hc as (a' & b' & r' & E' & Hm'); congruence|]. intros (a & b & r & E & Hm). injection E as <- _ _.
      destruct (Hc1 Hc); congruence.
Qed.

Lemma refigured_one (p : point PD) c' : refigure [p] = Ok c' -> exists p', c' = [p'] /\ pptype p' = OffCurve.
Proof.
  unfold refigure. cbn. intros H. injection H as <-. eexists. split; reflexivity.
Qed.

(** Contours as a history leaves them; [r]: their types have been refigured. *)
Definition state (r : Prop) c : Prop :=
  (cubic_contour_form c /\ (length c = 1 -> ~ r)) \/ (r /\ exists p, c = [p] /\ pptype p = OffCurve).

Lemma refigures_dec i e : refigures i e \/ ~ refigures i e.
Proof.
  unfold refigures. destruct e as [|k| |k| |k j ch]; try (right; intros [X|X]; discriminate); [left; now left|].
  destruct (Nat.eq_dec k i) as [->|N]; [left; now right|right; intros [X|X]; [discriminate|congruence]].
Qed.

Lemma state_iff (r r' : Prop) c : (r <-> r') -> state r c -> state r' c.
Proof. unfold state. tauto. Qed.

(** Edits that keep the types, or reverse. *)
Lemma state_types (r : Prop) c c' : types c = types c' -> state r c -> state r c'.
Proof.
  intros E. assert (length c = length c') as El by (apply (f_equal (@length _)) in E; unfold types in E; now rewrite !map_length in E).
  intros [[H1 H2]|[H1 (p & -> & H2)]]; [left; split; [now apply (form_types c)|now rewrite <- El]|].
  right. split; [exact H1|]. destruct c' as [|q [|]]; try discriminate. exists q. split; [reflexivity|]. cbn in E. congruence.
Qed.

Lemma reversed_one dbg (p : point PD) : exists p', to_reversed dbg [p] = Ok [p'] /\ pptype p' = pptype p.
Proof.
  exists (swapped p). split; [|reflexivity]. apply (to_reversed_closed dbg [p] p []); [reflexivity|]. intros (a & b & r & E & _). discriminate.
Qed.

Lemma reversed_state dbg (r : Prop) c c' : state r c -> to_reversed dbg c = Ok c' ->
  state r c' /\ length c' = length c /\ (opened c <-> opened c').
Proof.
  intros Hs H. split; [|split; [exact (reversed_length dbg c c' H)|exact (reversed_keeps dbg c c' H)]].
  destruct Hs as [[H1 H2]|[H1 (p & -> & H2)]].
  - left. split; [now apply (reversed_form dbg c)|]. now rewrite (reversed_length dbg c c' H).
  - destruct (reversed_one dbg p) as (p' & E & Et). rewrite E in H. injection H as <-. right. split; [exact H1|]. exists p'. split; [reflexivity|congruence].
Qed.

Lemma refigured_state (r : Prop) c c' : state r c -> refigure c = Ok c' ->
  state True c' /\ length c' = length c /\ (opened c <-> opened c').
Proof.
  intros Hs H. assert (length c = 1 \/ 2 <= length c) as [Hn|Hn].
  { destruct Hs as [[Hf _]|[_ (p & -> & _)]]; [now apply form_length|now left]. }
  - destruct c as [|p [|]]; try discriminate. destruct (refigured_one p c' H) as (p' & -> & Hp'). split; [right; split; [exact I|eauto]|]. split; [reflexivity|].
    split; intros (a & b & t & E & _); discriminate.
  - destruct (refigured_form c c' Hn H) as (Hl & Hf & Ho). split; [left; split; [exact Hf|lia]|split; [exact Hl|exact Ho]].
Qed.

Lemma act_state dbg e i (r : Prop) c c' : state r c -> act dbg e i c = Ok c' ->
  state (r \/ refigures i e) c' /\ length c' = length c /\ (opened c <-> opened c').
Proof.
  intros Hs H.
  assert (forall c', types c = types c' -> state (r \/ refigures i e) c' -> state (r \/ refigures i e) c' /\ length c' = length c /\ (opened c <-> opened c')) as Hty.
  { intros d E Hd. split; [exact Hd|]. split; [|now apply opened_types]. apply (f_equal (@length _)) in E. unfold types in E. now rewrite !map_length in E. }
  destruct e as [|k| |k| |k j ch]; cbn [act] in H.
  - destruct (reversed_state dbg r c c' Hs H) as (A & B). split; [|exact B]. apply (state_iff r); [|exact A]. unfold refigures. split; [tauto|intros [X|[X|X]]; [exact X|discriminate|discriminate]].
  - assert (r <-> r \/ refigures i (ReverseOne k)) as Hr by (unfold refigures; split; [tauto|intros [X|[X|X]]; [exact X|discriminate|discriminate]]).
    destruct (k =? i).
    + destruct (reversed_state dbg r c c' Hs H) as (A & B). split; [|exact B]. now apply (state_iff r).
    + injection H as <-. apply Hty; [reflexivity|now apply (state_iff r)].
  - destruct (refigured_state r c c' Hs H) as (A & B). split; [|exact B]. apply (state_iff True); [|exact A]. unfold refigures. tauto.
  - destruct (Nat.eqb_spec k i) as [->|N].
    + destruct (refigured_state r c c' Hs H) as (A & B). split; [|exact B]. apply (state_iff True); [|exact A]. unfold refigures. tauto.
    + injection H as <-. apply Hty; [reflexivity|]. apply (state_iff r); [|exact Hs]. unfold refigures. split; [tauto|intros [X|[X|X]]; [exact X|discriminate|congruence]].
  - injection H as <-. apply Hty; [unfold types; rewrite map_map; reflexivity|]. apply (state_types _ c); [unfold types; rewrite map_map; reflexivity|].
    apply (state_iff r); [|exact Hs]. unfold refigures. split; [tauto|intros [X|[X|X]]; [exact X|discriminate|discriminate]].
  - assert (r <-> r \/ refigures i (ChangeAt k j ch)) as Hr by (unfold refigures; split; [tauto|intros [X|[X|X]]; [exact X|discriminate|discriminate]]).
    assert (types c = types c') as Et by (destruct (k =? i); [now apply (changed_types c j ch)|injection H as <-; reflexivity]).
    apply Hty; [exact Et|]. apply (state_types _ c); [exact Et|]. now apply (state_iff r).
Qed.

(** When an edit panics. *)
Lemma at_place_outcome {A} (v : list A) i f a : nth_error v i = Some a ->
  (at_place v i f = Panic <-> f a = Panic) /\ forall e, at_place v i f = Err e <-> f a = Err e.
Proof.
  intros E. unfold at_place, idx. rewrite E. cbn [bind]. destruct (f a); cbn [bind]; split; [split|intros; split|split|intros; split|split|intros; split]; congruence.
Qed.

Lemma perform_outcome dbg o e : Forall (fun c => c <> []) o -> in_place o e ->
  (perform dbg o e = Panic <-> dbg = true /\ exists i c, nth_error o i = Some c /\ reverses i e /\ opened c /\ ~ clean_ends c) /\
  (forall x, perform dbg o e <> Err x).
Proof.
  intros Hne Hin. rewrite Forall_forall in Hne.
  destruct e as [|k| |k| |k j ch]; cbn [perform in_place] in *.
  - destruct (C84_reversed_total PD dbg o) as [A B]. split; [|exact B]. rewrite A. split.
    + intros (c & Hc & [->|(Hd & Ho & Hn)]); [now apply Hne in Hc|]. split; [exact Hd|]. apply In_nth_error in Hc as (i & Hi). exists i, c. split; [exact Hi|]. split; [now left|tauto].
    + intros (Hd & i & c & Hi & _ & Ho & Hn). exists c. split; [exact (nth_error_In _ _ Hi)|tauto].
  - destruct (at_some o k Hin) as (c & Hc). destruct (at_place_outcome o k (to_reversed dbg) c Hc) as [A B]. destruct (C16_reverse_panics_exactly dbg PD c) as [C D]. split.
    + rewrite A, C. split.
      * intros [->|(Hd & Ho & Hn)]; [now apply nth_error_In, Hne in Hc|]. split; [exact Hd|]. exists k, c. split; [exact Hc|]. split; [now right|tauto].
      * intros (Hd & i & d & Hi & [Hr|Hr] & Ho & Hn); [discriminate|]. injection Hr as ->. rewrite Hc in Hi. injection Hi as <-. tauto.
    + intros x Hx. apply B in Hx. now apply D in Hx.
  - destruct (C84_refigured PD o) as (o' & -> & _). split; [|intros x; discriminate]. split; [discriminate|]. intros (_ & i & c & _ & [X|X] & _); discriminate.
  - destruct (at_some o k Hin) as (c & Hc). destruct (at_place_outcome o k refigure c Hc) as [A B]. destruct (refigure_total c) as (c' & E & _). split.
    + rewrite A, E. split; [discriminate|]. intros (_ & i & d & _ & [X|X] & _); discriminate.
    + intros x Hx. apply B in Hx. congruence.
  - split; [|intros x; discriminate]. split; [discriminate|]. intros (_ & i & c & _ & [X|X] & _); discriminate.
  - destruct Hin as (c & Hc & Hj). destruct (at_some c j Hj) as (p & Hp).
    destruct (at_place_outcome o k (fun c => at_place c j (fun p => Ok (change_cubic ch p))) c Hc) as [A B].
    destruct (at_place_outcome c j (fun p => Ok (change_cubic ch p)) p Hp) as [C D]. split.
    + rewrite A, C. split; [discriminate|]. intros (_ & i & d & _ & [X|X] & _); discriminate.
    + intros x Hx. apply B, D in Hx. discriminate.
Qed.

(** Histories. *)
Definition touched (es : list session_edit) (i : nat) : Prop := exists e, In e es /\ refigures i e.

Lemma in_place_shape o o' e : length o = length o' ->
  (forall i c, nth_error o i = Some c -> exists c', nth_error o' i = Some c' /\ length c' = length c) -> in_place o e -> in_place o' e.
Proof.
  intros Hl Hs. destruct e as [|k| |k| |k j ch]; cbn [in_place]; unfold outline, contour in *; try tauto; try (now rewrite <- Hl).
  intros (c & Hc & Hj). destruct (Hs k c Hc) as (c' & Hc' & El). exists c'. split; [exact Hc'|lia].
Qed.

Lemma session_state dbg es : forall (r : nat -> Prop) o o',
  (forall i c, nth_error o i = Some c -> state (r i) c) -> session dbg o es = Ok o' ->
  length o' = length o /\ forall i c, nth_error o i = Some c -> exists c', nth_error o' i = Some c' /\
    state (r i \/ touched es i) c' /\ length c' = length c /\ (opened c <-> opened c').
Proof.
  induction es as [|e es IH]; intros r o o' Hs H; cbn [session] in H.
  - injection H as <-. split; [reflexivity|]. intros i c Hc. exists c. split; [exact Hc|]. split; [|tauto]. apply (state_iff (r i)); [|now apply Hs].
    unfold touched. cbn [In]. firstorder.
  - destruct (perform dbg o e) as [o1| |] eqn:E; cbn [bind] in H; try discriminate. destruct (performed dbg o e o1 E) as [Hl Hp].
    destruct (IH (fun i => r i \/ refigures i e) o1 o') as [Hl' IH'].
    + intros i c1 Hc1. assert (i < length o) as Hi by (unfold outline, contour in *; rewrite Hl; apply nth_error_Some; intros Xn; rewrite Xn in Hc1; discriminate). destruct (at_some o i Hi) as (c & Hc).
      destruct (Hp i c Hc) as (c1' & Hc1' & Ha). rewrite Hc1 in Hc1'. injection Hc1' as <-. exact (proj1 (act_state dbg e i (r i) c c1 (Hs i c Hc) Ha)).
    + exact H.
    + split; [congruence|]. intros i c Hc. destruct (Hp i c Hc) as (c1 & Hc1 & Ha). destruct (act_state dbg e i (r i) c c1 (Hs i c Hc) Ha) as (_ & A2 & A3).
      destruct (IH' i c1 Hc1) as (c' & Hc' & B1 & B2 & B3). exists c'. split; [exact Hc'|]. split; [|split; [congruence|tauto]].
      revert B1. apply state_iff. unfold touched. cbn [In]. split.
      * intros [[X|X]|(e' & X & Y)]; [now left|right; eauto|right; eauto].
      * intros [X|(e' & [<-|X] & Y)]; [tauto|tauto|right; eauto].
Qed.

Lemma state_nonempty (r : Prop) c : state r c -> c <> [].
Proof. intros [[(p & t & -> & _) _]|[_ (p & -> & _)]]; discriminate. Qed.

Lemma session_outcome dbg es : forall (r : nat -> Prop) o,
  (forall i c, nth_error o i = Some c -> state (r i) c) -> Forall (in_place o) es ->
  (session dbg o es = Panic <-> dbg = true /\ exists before e after o1 i c, es = before ++ e :: after /\ session dbg o before = Ok o1 /\
     nth_error o1 i = Some c /\ reverses i e /\ opened c /\ ~ clean_ends c) /\
  (forall x, session dbg o es <> Err x).
Proof.
  induction es as [|e es IH]; intros r o Hs Hin.
  - split; [|intros x; discriminate]. split; [discriminate|]. intros (_ & b & e & a & o1 & i & c & X & _). now destruct b.
  - inversion_clear Hin as [|? ? He Hes].
    assert (Forall (fun c => c <> []) o) as Hne by (apply Forall_forall; intros c Hc; apply In_nth_error in Hc as (i & Hi); exact (state_nonempty _ c (Hs i c Hi))).
    destruct (perform_outcome dbg o e Hne He) as [A B]. cbn [session].
    destruct (perform dbg o e) as [o1|x|] eqn:E; cbn [bind].
    + destruct (performed dbg o e o1 E) as [Hl Hp].
      destruct (IH (fun i => r i \/ refigures i e) o1) as [C D].
      * intros i c1 Hc1. assert (i < length o) as Hi by (unfold outline, contour in *; rewrite Hl; apply nth_error_Some; intros Xn; rewrite Xn in Hc1; discriminate). destruct (at_some o i Hi) as (c & Hc).
        destruct (Hp i c Hc) as (c1' & Hc1' & Ha). rewrite Hc1 in Hc1'. injection Hc1' as <-. exact (proj1 (act_state dbg e i (r i) c c1 (Hs i c Hc) Ha)).
      * apply Forall_forall. rewrite Forall_forall in Hes. intros e' He'. apply (in_place_shape o); [exact Hl| |now apply Hes]. intros i c Hc. destruct (Hp i c Hc) as (c1 & Hc1 & Ha).
        exists c1. split; [exact Hc1|]. exact (proj1 (proj2 (act_state dbg e i (r i) c c1 (Hs i c Hc) Ha))).
      * split; [|exact D]. rewrite C. split.
        -- intros (Hd & b & e' & a & o2 & i & c & -> & H1 & H2). split; [exact Hd|]. exists (e :: b), e', a, o2, i, c. split; [reflexivity|]. split; [|exact H2]. cbn [session]. now rewrite E.
        -- intros (Hd & b & e' & a & o2 & i & c & H0 & H1 & H2). split; [exact Hd|]. destruct b as [|e0 b]; cbn in H0; injection H0 as <- ->.
           ++ cbn [session] in H1. injection H1 as <-. exfalso. assert (Ok o1 = Panic) as X by (apply A; split; [exact Hd|]; exists i, c; tauto). discriminate.
           ++ cbn [session] in H1. rewrite E in H1. exists b, e', a, o2, i, c. split; [reflexivity|]. split; [exact H1|exact H2].
    + now destruct (B x).
    + split; [|intros x; discriminate]. split; [intros _|reflexivity]. destruct (proj1 A eq_refl) as (Hd & i & c & H). split; [exact Hd|].
      exists [], e, es, o, i, c. split; [reflexivity|]. split; [reflexivity|tauto].
Qed.

(** Nothing beyond the ends. *)
Lemma knock_colocated x y : knock x y Colocated = Colocated. Proof. reflexivity. Qed.

Lemma tidy_ends c c' : length c' = length c ->
  (forall i p p', nth_error c i = Some p -> nth_error c' i = Some p' -> (pa p = Colocated -> pa p' = Colocated) /\ (pb p = Colocated -> pb p' = Colocated)) ->
  clean_ends c -> clean_ends c'.
Proof.
  intros Hl H Hc p' t' E. destruct c as [|p t]; [rewrite E in Hl; discriminate|]. destruct (Hc p t eq_refl) as [A B].
  assert (forall (l : list (point PD)) d, l <> [] -> nth_error l (length l - 1) = Some (last l d)) as Hlast.
  { intros l d. induction l as [|a l IH]; [now intros []|]. intros _. destruct l as [|b l]; [reflexivity|]. cbn [length]. replace (S (S (length l)) - 1) with (S (length (b :: l) - 1)) by (cbn [length]; lia).
    cbn [nth_error]. rewrite IH by discriminate. reflexivity. }
  split.
  - apply (H 0 p p'); [reflexivity|now rewrite E|exact A].
  - apply (H (length c' - 1) (last (p :: t) p) (last c' p')); [rewrite Hl; apply Hlast; discriminate|apply Hlast; rewrite E; discriminate|exact B].
Qed.

Lemma act_clean dbg e i c c' : places_no_handle e -> act dbg e i c = Ok c' -> (opened c -> clean_ends c) -> (opened c <-> opened c') -> opened c' -> clean_ends c'.
Proof.
  intros Hno H Hc Ho Ho'. assert (opened c) as Hop by tauto. specialize (Hc Hop).
  assert (to_reversed dbg c = Ok c' -> clean_ends c') as Hrev.
  { clear H. intros H. destruct (opened_ends c Hop) as (p & m & l & -> & Hm). destruct (Hc p (m ++ [l]) eq_refl) as [A B].
    replace (last (p :: m ++ [l]) p) with l in B by (symmetry; apply (last_last (p :: m))).
    rewrite to_reversed_open in H by exact Hm. destruct (dbg && _); [discriminate|]. injection H as <-. intros q t E.
    split; [injection E as <- _; exact B|]. clear E. rewrite app_comm_cons, last_last. exact A. }
  assert (refigure c = Ok c' -> clean_ends c') as Href.
  { clear H. intros H. assert (2 <= length c) as Hn by (destruct Hop as (a & b & t & -> & _); cbn; lia). destruct (refigure_types c c' Hn H) as (Hl & Hs & _).
    apply (tidy_ends c); [exact Hl| |exact Hc]. intros k p p' Hp Hp'. destruct (Hs k p p' Hp Hp') as (_ & _ & _ & _ & _ & X & Y). split; intros Z; [destruct X as [[_ W]|[_ W]]|destruct Y as [[_ W]|[_ W]]]; congruence. }
  destruct e as [|k| |k| |k j ch]; cbn [act] in H.
  - exact (Hrev H).
  - destruct (k =? i); [exact (Hrev H)|injection H as <-; exact Hc].
  - exact (Href H).
  - destruct (k =? i); [exact (Href H)|injection H as <-; exact Hc].
  - injection H as <-. apply (tidy_ends c); [apply map_length| |exact Hc]. intros n p p' Hp Hp'. rewrite nth_error_map, Hp in Hp'. injection Hp' as <-. split; intros X; exact X.
  - destruct (k =? i); [|injection H as <-; exact Hc]. apply at_place_ok in H as (q & q' & Hq & E & ->). injection E as <-.
    apply (tidy_ends c); [apply set_nth_length| |exact Hc]. intros n p p' Hp Hp'. rewrite set_nth_error in Hp'.
    destruct (Nat.eqb_spec n j) as [->|N]; [|rewrite Hp in Hp'; injection Hp' as <-; tauto].
    rewrite Hp in Hq. injection Hq as <-. destruct (j <? length c); [|discriminate]. injection Hp' as <-. unfold change_cubic.
    destruct ch as [s|b|w h|w|w x y|x y|x y]; cbn in Hno |- *; try (split; intros X; exact X); try contradiction.
    + destruct h as [hx hy|]; [contradiction|]. destruct w; cbn; split; intros X; first [exact X|reflexivity].
    + destruct w; cbn; split; intros X; first [exact X|reflexivity].
    + split; intros ->; reflexivity.
Qed.

Lemma session_clean dbg es : forall (r : nat -> Prop) o o',
  (forall i c, nth_error o i = Some c -> state (r i) c) -> (forall i c, nth_error o i = Some c -> opened c -> clean_ends c) ->
  Forall places_no_handle es -> session dbg o es = Ok o' -> forall i c, nth_error o' i = Some c -> opened c -> clean_ends c.
Proof.
  induction es as [|e es IH]; intros r o o' Hs Hc Hno H; cbn [session] in H; [injection H as <-; exact Hc|].
  inversion_clear Hno as [|? ? He Hes]. destruct (perform dbg o e) as [o1| |] eqn:E; cbn [bind] in H; try discriminate. destruct (performed dbg o e o1 E) as [Hl Hp].
  assert (forall i c1, nth_error o1 i = Some c1 -> exists c, nth_error o i = Some c /\ act dbg e i c = Ok c1) as Hb.
  { unfold outline, contour in *. intros i c1 Hc1. assert (i < length o) as Hi by (unfold outline, contour in *; rewrite Hl; apply nth_error_Some; intros Xn; rewrite Xn in Hc1; discriminate). destruct (at_some o i Hi) as (c & Hc0).
    destruct (Hp i c Hc0) as (c1' & Hc1' & Ha). rewrite Hc1 in Hc1'. injection Hc1' as <-. eauto. }
  apply (IH (fun i => r i \/ refigures i e) o1 o'); [| |exact Hes|exact H].
  - intros i c1 Hc1. destruct (Hb i c1 Hc1) as (c & Hc0 & Ha). exact (proj1 (act_state dbg e i (r i) c c1 (Hs i c Hc0) Ha)).
  - intros i c1 Hc1. destruct (Hb i c1 Hc1) as (c & Hc0 & Ha). apply (act_clean dbg e i c c1 He Ha (Hc i c Hc0)). exact (proj2 (proj2 (act_state dbg e i (r i) c c1 (Hs i c Hc0) Ha))).
Qed.
End Session.
