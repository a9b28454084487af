(** Recomputing point types. *)
Require Import Coq.Lists.List Coq.Arith.Arith Coq.Bool.Bool Coq.micromega.Lia.
Require Import Verif.Model.Base Verif.Model.Float Verif.Model.Num Verif.Model.Point Verif.Model.Contour
  Verif.Model.Refigure Verif.Spec.ContourSpec Verif.Facts.ContourFacts.
Import ListNotations.

Section R.
Context {PD : Type}.
Implicit Types (p : point PD) (c : contour PD).

Definition knocked p : point PD :=
  with_b (with_a p (knock (px p) (py p) (pa p))) (knock (px p) (py p) (pb p)).

(** Type given to the point at index i of the original contour c. *)
Definition new_type c (i : nat) p : ptype :=
  if length c =? 1 then OffCurve
  else match i with
       | 0 => if is_open c then Move
              else match nth_error c (length c - 1) with
                   | Some l => kind_of (pa l) (pb (knocked p))
                   | None => OffCurve
                   end
       | S j => match nth_error c j with
                | Some q => kind_of (pa (knocked q)) (pb (knocked p))
                | None => OffCurve
                end
       end.
Definition out c (i : nat) p : point PD := with_ptype (knocked p) (new_type c i p).

Definition after c (k : nat) (d : contour PD) : Prop :=
  forall i, nth_error d i = if i <? k then option_map (out c i) (nth_error c i) else nth_error c i.

Lemma after_length c k d : after c k d -> length d = length c.
Proof.
  intros H.
  assert (forall i, nth_error d i = None <-> nth_error c i = None) as Hi.
  { intros i. rewrite (H i). destruct (i <? k); [|tauto]. destruct (nth_error c i); cbn; split; congruence. }
  destruct (Nat.lt_trichotomy (length d) (length c)) as [L|[L|L]]; [|assumption|].
  - assert (nth_error d (length d) = None) as E by (apply nth_error_None; lia).
    apply Hi in E. apply nth_error_None in E. lia.
  - assert (nth_error c (length c) = None) as E by (apply nth_error_None; lia).
    apply Hi in E. apply nth_error_None in E. lia.
Qed.

Lemma is_open_nth c : is_open c = match nth_error c 0, nth_error c 1 with
  | Some p, Some _ => ptype_eqb (pptype p) Move | _, _ => true end.
Proof. destruct c as [|p [|q t]]; reflexivity. Qed.

Lemma kind_not_move a b : kind_of a b <> Move.
Proof. destruct a, b; discriminate. Qed.
Lemma new_type_not_move_closed c i p : is_open c = false -> new_type c i p <> Move.
Proof.
  intros H. unfold new_type. destruct (length c =? 1); [discriminate|].
  destruct i; [rewrite H; destruct (nth_error c _)|destruct (nth_error c i)]; try discriminate;
    apply kind_not_move.
Qed.
Lemma new_type_open_first c p : is_open c = true -> length c <> 1 -> new_type c 0 p = Move.
Proof. intros H Hn. unfold new_type. destruct (Nat.eqb_spec (length c) 1); [congruence|]. now rewrite H. Qed.

Lemma after_is_open c k d : after c k d -> is_open d = is_open c.
Proof.
  intros H. destruct (Nat.eq_dec k 0) as [->|Hk].
  { assert (d = c) as -> by (apply nth_error_ext; intros i; rewrite (H i); reflexivity). reflexivity. }
  pose proof (after_length c k d H) as Hl.
  destruct c as [|p [|q t]].
  - destruct d; [reflexivity|discriminate].
  - destruct d as [|? [|? ?]]; try discriminate. reflexivity.
  - assert (exists q', nth_error d 1 = Some q') as [q' E1].
    { destruct (nth_error d 1) eqn:E; eauto. apply nth_error_None in E. cbn in Hl. lia. }
    assert (nth_error d 0 = Some (out (p :: q :: t) 0 p)) as E0
      by (rewrite (H 0); destruct (Nat.ltb_spec 0 k); [reflexivity|lia]).
    rewrite (is_open_nth d), E0, E1. cbn [out with_ptype pptype].
    destruct (is_open (p :: q :: t)) eqn:Ho.
    + unfold out. cbn [pptype with_ptype]. rewrite new_type_open_first by (auto; discriminate). reflexivity.
    + unfold out. cbn [pptype with_ptype].
      pose proof (new_type_not_move_closed (p :: q :: t) 0 p Ho) as Hm.
      destruct (ptype_eqb_spec (new_type (p :: q :: t) 0 p) Move); [congruence|reflexivity].
Qed.

Lemma is_open_set_nonzero c i p : i <> 0 -> is_open (set_nth c i p) = is_open c.
Proof.
  intros Hi. rewrite !is_open_nth, !set_nth_error.
  destruct (Nat.eqb_spec 0 i); [lia|]. destruct (nth_error c 0); [|reflexivity].
  destruct (Nat.eqb_spec 1 i) as [<-|]; [|reflexivity].
  destruct (Nat.ltb_spec 1 (length c)).
  - destruct (nth_error c 1) eqn:E; [reflexivity|]. apply nth_error_None in E. lia.
  - destruct (nth_error c 1) eqn:E; [|reflexivity]. assert (nth_error c 1 <> None) as HH by congruence.
    apply nth_error_Some in HH. lia.
Qed.
Lemma is_open_set_zero c p q : nth_error c 0 = Some p -> pptype q = pptype p -> is_open (set_nth c 0 q) = is_open c.
Proof.
  intros Hp Hq. rewrite !is_open_nth, !set_nth_error, Hp. cbn [Nat.eqb].
  destruct (Nat.ltb_spec 0 (length c)) as [H|H].
  - now rewrite Hq.
  - destruct c; [discriminate|cbn in H; lia].
Qed.

Lemma kind_of_match a b : (match a, b with Colocated, Colocated => Line | _, _ => Curve end) = kind_of a b.
Proof. reflexivity. Qed.

Lemma step_after c k d : after c k d -> k < length c ->
  exists d', refigure_step d k = Ok d' /\ after c (S k) d'.
Proof.
  intros H Hk. pose proof (after_length c k d H) as Hl.
  destruct (idx_ok c k Hk) as (p & Hp & _).
  pose proof (H k) as Hdk. rewrite Nat.ltb_irrefl, Hp in Hdk.
  unfold refigure_step. rewrite (proj2 (idx_nth d k p) Hdk). cbn [bind].
  change (with_b (with_a p (knock (px p) (py p) (pa p)))
     (knock (px (with_a p (knock (px p) (py p) (pa p)))) (py (with_a p (knock (px p) (py p) (pa p))))
        (pb (with_a p (knock (px p) (py p) (pa p)))))) with (knocked p).
  set (d1 := set_nth d k (knocked p)).
  assert (length d1 = length c) as Hl1 by (unfold d1; now rewrite set_nth_length).
  assert (nth_error d1 k = Some (knocked p)) as Hd1k.
  { unfold d1. rewrite set_nth_error, Nat.eqb_refl. destruct (Nat.ltb_spec k (length d)); [reflexivity|lia]. }
  assert (is_open d1 = is_open c) as Ho1.
  { rewrite <- (after_is_open c k d H). unfold d1. destruct (Nat.eq_dec k 0) as [->|Hk0].
    - now apply is_open_set_zero with (p := p).
    - now apply is_open_set_nonzero. }
  assert (point_type_for_idx d1 k = Ok (new_type c k p)) as Ht.
  { unfold point_type_for_idx. rewrite Ho1, (proj2 (idx_nth d1 k _) Hd1k). cbn [bind].
    unfold contour_prev_next_handles.
    destruct (Nat.eq_dec (length c) 1) as [E1|E1].
    { destruct (contour_prev_next_err d1 k) as [e ->]; [right; lia|]. cbn [bind].
      unfold new_type. now rewrite E1. }
    assert (2 <= length c) as Hn by lia.
    unfold new_type. destruct (Nat.eqb_spec (length c) 1); [lia|].
    destruct (is_open c) eqn:Ho.
    - assert (opened d1) as Hop by (apply is_open_iff; [lia|assumption]).
      rewrite contour_prev_next_open by (auto; lia). cbn [bind fst snd].
      assert (forall o, (forall i, o = Some i -> i < length d1) -> exists hs, handles_at d1 o = Ok hs) as Hat.
      { intros [i|] Hi; cbn [handles_at]; [|eauto]. destruct (idx_ok d1 i) as (x & _ & ->); [auto|]. cbn. eauto. }
      set (o2 := if k =? length d1 - 1 then None else Some (k + 1)).
      destruct (Hat o2) as [hs Ehs].
      { intros i. unfold o2. destruct (Nat.eqb_spec k (length d1 - 1)); [discriminate|]. intros [= <-]. lia. }
      clearbody o2. destruct k as [|j].
      + cbn [Nat.eqb handles_at bind]. rewrite Ehs. cbn [bind]. destruct hs. reflexivity.
      + cbn [Nat.eqb]. replace (S j - 1) with j by lia. cbn [handles_at].
        assert (nth_error d1 j = option_map (out c j) (nth_error c j)) as Hj.
        { unfold d1. rewrite set_nth_error. destruct (Nat.eqb_spec j (S j)); [lia|].
          rewrite (H j). destruct (Nat.ltb_spec j (S j)); [reflexivity|lia]. }
        destruct (idx_ok c j) as (q & Hq & _); [lia|]. rewrite Hq in Hj. cbn [option_map] in Hj.
        rewrite (proj2 (idx_nth d1 j _) Hj). cbn [bind].
        rewrite Ehs.
        cbn [bind negb orb]. rewrite Hq. destruct hs. reflexivity.
    - assert (closed d1) as Hcl by (apply is_open_iff; [lia|assumption]).
      rewrite contour_prev_next_closed by (auto; lia). cbn [bind fst snd].
      destruct (neighbours_good (length d1) k) as (Hpr & Hnx & _); [lia|lia|].
      cbn [handles_at].
      destruct (idx_ok d1 _ Hnx) as (y & _ & Hy).
      rewrite <- prev_of_eq by lia. destruct k as [|j].
      + cbn [Nat.eqb]. destruct (idx_ok c (length c - 1)) as (l & Hlst & _); [lia|].
        assert (nth_error d1 (length d1 - 1) = Some l) as E.
        { unfold d1. rewrite set_nth_error, set_nth_length. destruct (Nat.eqb_spec (length d - 1) 0); [lia|].
          rewrite (H (length d - 1)). destruct (Nat.ltb_spec (length d - 1) 0); [lia|]. now rewrite Hl. }
        rewrite (proj2 (idx_nth d1 _ l) E). cbn [bind]. rewrite Hy. cbn [bind negb orb]. rewrite Hlst. reflexivity.
      + cbn [Nat.eqb]. replace (S j - 1) with j by lia.
        assert (nth_error d1 j = option_map (out c j) (nth_error c j)) as Hj.
        { unfold d1. rewrite set_nth_error. destruct (Nat.eqb_spec j (S j)); [lia|].
          rewrite (H j). destruct (Nat.ltb_spec j (S j)); [reflexivity|lia]. }
        destruct (idx_ok c j) as (q & Hq & _); [lia|]. rewrite Hq in Hj. cbn [option_map] in Hj.
        rewrite (proj2 (idx_nth d1 j _) Hj). cbn [bind]. rewrite Hy. cbn [bind negb orb]. rewrite Hq. reflexivity. }
  rewrite Ht. cbn [bind]. eexists. split; [reflexivity|].
  intros i. unfold d1. rewrite !set_nth_error, set_nth_length.
  destruct (Nat.eqb_spec i k) as [->|Hik].
  - destruct (Nat.ltb_spec k (length d)); [|lia]. destruct (Nat.ltb_spec k (S k)); [|lia]. rewrite Hp. reflexivity.
  - rewrite (H i). destruct (Nat.ltb_spec i k), (Nat.ltb_spec i (S k)); try lia; reflexivity.
Qed.

Lemma loop_after c : forall n k d, after c k d -> k + n = length c ->
  exists d', refigure_loop d (seq k n) = Ok d' /\ after c (length c) d'.
Proof.
  induction n as [|n IH]; intros k d H Hk; cbn [seq refigure_loop].
  - exists d. split; [reflexivity|]. now replace (length c) with k by lia.
  - destruct (step_after c k d H) as (d' & -> & H'); [lia|]. cbn [bind]. apply IH; [assumption|lia].
Qed.

Theorem refigure_total c : exists c', refigure c = Ok c' /\ after c (length c) c'.
Proof. unfold refigure. apply (loop_after c (length c) 0 c); [|lia]. intros i. reflexivity. Qed.

Lemma refigure_after c c' : refigure c = Ok c' ->
  length c' = length c /\ forall i, nth_error c' i = option_map (out c i) (nth_error c i).
Proof.
  intros H. destruct (refigure_total c) as (d & E & Ha). assert (c' = d) as -> by congruence.
  split; [now apply after_length in Ha|].
  intros i. rewrite (Ha i). destruct (Nat.ltb_spec i (length c)); [reflexivity|].
  rewrite (proj2 (nth_error_None c i)) by assumption. reflexivity.
Qed.

Lemma on_point_iff p h : on_point p h <-> match h with At x y => feq x (px p) && feq y (py p) = true | Colocated => False end.
Proof.
  unfold on_point. destruct h as [x y|].
  - rewrite andb_true_iff. split; [intros (a & b & E & H); injection E as -> ->; tauto|]. intros H. exists x, y. tauto.
  - split; [intros (a & b & E & H); discriminate|tauto].
Qed.
Lemma knock_tidied p h : tidied p h (knock (px p) (py p) h).
Proof.
  unfold tidied. rewrite on_point_iff. unfold knock. destruct h as [x y|]; [|right; auto].
  destruct (feq x (px p) && feq y (py p)); [left|right]; auto.
Qed.

Lemma out_same c i p : same_but_tidied p (out c i p).
Proof. unfold same_but_tidied. cbn. repeat split; apply knock_tidied. Qed.

Lemma refigure_types c c' : 2 <= length c -> refigure c = Ok c' ->
  length c' = length c /\
  (forall i p p', nth_error c i = Some p -> nth_error c' i = Some p' -> same_but_tidied p p') /\
  (forall i p' q', nth_error c' i = Some q' -> nth_error c' (S i) = Some p' ->
     pptype p' = kind_of (pa q') (pb p')) /\
  (opened c -> forall p', nth_error c' 0 = Some p' -> pptype p' = Move) /\
  (closed c -> forall p' l, nth_error c' 0 = Some p' -> nth_error c (length c - 1) = Some l ->
     pptype p' = kind_of (pa l) (pb p')).
Proof.
  intros Hn H. destruct (refigure_after c c' H) as [Hl Ha]. split; [assumption|].
  split; [|split; [|split]].
  - intros i p p' Hp Hp'. rewrite Ha, Hp in Hp'. injection Hp' as <-. apply out_same.
  - intros i p' q' Hq Hp. rewrite Ha in Hq, Hp.
    destruct (nth_error c i) as [q|] eqn:Eq; [|discriminate]. destruct (nth_error c (S i)) as [p|] eqn:Ep; [|discriminate].
    cbn [option_map] in *. injection Hq as <-. injection Hp as <-.
    unfold out at 1, new_type. cbn [pptype with_ptype]. destruct (Nat.eqb_spec (length c) 1); [lia|]. rewrite Eq. reflexivity.
  - intros Ho p' Hp'. rewrite Ha in Hp'. destruct (nth_error c 0) as [p|]; [|discriminate]. injection Hp' as <-.
    unfold out. cbn [pptype with_ptype]. apply new_type_open_first; [|lia]. now apply is_open_opened.
  - intros Hc p' l Hp' Hlst. rewrite Ha in Hp'. destruct (nth_error c 0) as [p|]; [|discriminate]. injection Hp' as <-.
    unfold out at 1, new_type. cbn [pptype with_ptype]. destruct (Nat.eqb_spec (length c) 1); [lia|].
    rewrite Hlst. apply is_open_closed in Hc as [-> _]. reflexivity.
Qed.

(** Twice. *)
Lemma knock_idem x y h : knock x y (knock x y h) = knock x y h.
Proof.
  destruct h as [a b|]; [|reflexivity]. unfold knock. destruct (feq a x && feq b y) eqn:E; [reflexivity|].
  now rewrite E.
Qed.
Lemma knocked_with_ptype p t : knocked (with_ptype p t) = with_ptype (knocked p) t.
Proof. reflexivity. Qed.
Lemma knocked_idem p : knocked (knocked p) = knocked p.
Proof. unfold knocked, with_a, with_b. cbn. now rewrite !knock_idem. Qed.

Lemma out_out c c' i p : refigure c = Ok c' ->
  (i <> 0 \/ is_open c = true \/ length c <= 1 \/
   forall l, nth_error c (length c - 1) = Some l ->
     kind_of (pa (knocked l)) (pb (knocked p)) = kind_of (pa l) (pb (knocked p))) ->
  out c' i (out c i p) = out c i p.
Proof.
  intros H Hcond. destruct (refigure_after c c' H) as [Hl Ha].
  assert (is_open c' = is_open c) as Ho.
  { destruct (refigure_total c) as (d & E & Hd). assert (c' = d) as -> by congruence. eapply after_is_open; eauto. }
  assert (new_type c' i (out c i p) = new_type c i p) as E.
  { unfold new_type. rewrite Hl. destruct (length c =? 1) eqn:E1; [reflexivity|].
    unfold out. rewrite !knocked_with_ptype, knocked_idem. cbn [with_ptype pb].
    destruct i as [|j].
    - rewrite Ho. destruct (is_open c) eqn:Hoc; [reflexivity|]. rewrite Ha.
      destruct (nth_error c (length c - 1)) as [l|] eqn:El; [|reflexivity]. cbn [option_map].
      unfold out. cbn [with_ptype pa].
      destruct Hcond as [Hc|[Hc|[Hc|Hc]]]; [congruence|congruence| |now apply Hc].
      destruct c as [|? [|? ?]]; cbn in *; try discriminate; lia.
    - rewrite Ha. destruct (nth_error c j) as [q|]; [|reflexivity]. cbn [option_map].
      unfold out. rewrite knocked_with_ptype, knocked_idem. reflexivity. }
  unfold out at 1. rewrite E. unfold out. rewrite knocked_with_ptype, knocked_idem. reflexivity.
Qed.

Lemma refigure_eq_out c c' : refigure c = Ok c' ->
  (refigure c' = Ok c' <-> forall i p, nth_error c i = Some p -> out c' i (out c i p) = out c i p).
Proof.
  intros H. destruct (refigure_after c c' H) as [Hl Ha].
  destruct (refigure_total c') as (c'' & E & _). destruct (refigure_after c' c'' E) as [Hl' Ha'].
  split.
  - intros HE i p Hp. assert (c'' = c') as -> by congruence. specialize (Ha' i). rewrite Ha, Hp in Ha'.
    cbn [option_map] in Ha'. congruence.
  - intros HO. rewrite E. f_equal. apply nth_error_ext. intros i. rewrite Ha', Ha.
    destruct (nth_error c i) as [p|] eqn:Ep; [|reflexivity]. cbn [option_map]. f_equal. now apply HO.
Qed.

Lemma knock_kind p h : knock (px p) (py p) h = Colocated <-> h = Colocated \/ on_point p h.
Proof.
  rewrite on_point_iff. unfold knock. destruct h as [x y|]; [|tauto].
  destruct (feq x (px p) && feq y (py p)); split; auto; try discriminate. intros [?|?]; discriminate.
Qed.

Lemma refigure_idempotent_iff c c' : refigure c = Ok c' -> (refigure c' = Ok c' <-> ~ late_start c).
Proof.
  intros H. rewrite (refigure_eq_out c c' H). destruct (refigure_after c c' H) as [Hl Ha]. split.
  - intros HO (Hc & p & l & Hp & Hlst & Hon & Hb).
    specialize (HO 0 p Hp). apply (f_equal pptype) in HO. unfold out in HO. cbn [pptype with_ptype] in HO.
    pose proof (is_open_closed c Hc) as [Ho Hn].
    assert (is_open c' = false) as Ho'.
    { destruct (refigure_total c) as (d & E & Hd). assert (c' = d) as -> by congruence. erewrite after_is_open; eauto. }
    unfold new_type in HO. rewrite Ho, Ho', Hl in HO. destruct (Nat.eqb_spec (length c) 1); [lia|].
    rewrite Ha, Hlst in HO. cbn [option_map] in HO.
    fold (out c 0 p) in HO.
    assert (pa (out c (length c - 1) l) = Colocated) as E1.
    { unfold out. cbn. apply knock_kind. now right. }
    assert (pb (knocked p) = Colocated) as E2. { cbn. now apply knock_kind. }
    rewrite E1, !knocked_with_ptype, knocked_idem in HO. cbn [with_ptype pb] in HO. rewrite E2 in HO.
    destruct (pa l) as [x y|]; [discriminate|]. apply on_point_iff in Hon. exact Hon.
  - intros HL i p Hp. apply out_out; [assumption|].
    destruct (Nat.eq_dec i 0) as [->|Hi]; [|now left]. right.
    destruct (is_open c) eqn:Ho; [now left|]. right.
    destruct (le_lt_dec (length c) 1) as [Hn|Hn]; [now left|]. right.
    intros l Hlst. assert (closed c) as Hc by (apply is_open_iff; [lia|assumption]).
    cbn [knocked with_a with_b pa pb].
    destruct (knock (px p) (py p) (pb p)) as [bx by_|] eqn:Eb.
    + now destruct (knock (px l) (py l) (pa l)), (pa l).
    + destruct (knock (px l) (py l) (pa l)) as [ax ay|] eqn:Ea.
      * destruct (pa l); [reflexivity|discriminate].
      * apply knock_kind in Ea as [Ea|Ea]; [now rewrite Ea|]. exfalso. apply HL. split; [assumption|].
        exists p, l. apply knock_kind in Eb. auto.
Qed.

(** The second run is always stable. *)
Lemma refigure_thrice c c' c'' : refigure c = Ok c' -> refigure c' = Ok c'' -> refigure c'' = Ok c''.
Proof.
  intros H H'. apply (refigure_idempotent_iff c' c'' H'). intros (Hc & p' & l' & Hp' & Hl' & Hon & _).
  destruct (refigure_after c c' H) as [_ Ha]. rewrite Ha in Hl'.
  destruct (nth_error c (length c' - 1)) as [l|]; [|discriminate]. injection Hl' as <-.
  apply on_point_iff in Hon. cbn [out with_ptype pa knocked with_b with_a px py] in Hon.
  destruct (pa l) as [x y|]; cbn [knock] in Hon; [|exact Hon].
  destruct (feq x (px l) && feq y (py l)) eqn:E; [exact Hon|]. congruence.
Qed.

End R.
