(** Writing contours as points of a file, and reading them back. *)
Require Import Coq.Lists.List Coq.Arith.Arith Coq.Bool.Bool Coq.micromega.Lia Coq.Sorting.Permutation.
Require Import Verif.Model.Base Verif.Model.Text Verif.Model.Float Verif.Model.Num Verif.Model.Point
  Verif.Model.Contour Verif.Model.Create Verif.Model.Conv Verif.Spec.ContourSpec Verif.Spec.OutlineSpec
  Verif.Facts.ContourFacts Verif.Facts.CreateFacts.
Import ListNotations.

Definition triple := (glifpoint * glifpoint * glifpoint)%type.
Definition flat1 (t : triple) : list glifpoint := let '(x, y, z) := t in [x; y; z].
Definition flat (l : list triple) : list glifpoint := flat_map flat1 l.
Definition type_of (t : triple) : ptype := gptype (snd t).
Definition kept1 (t : triple) : list glifpoint :=
  let '(x, y, z) := t in
  match gptype z with
  | Curve => [x; y; z] | QCurve => [y; z] | Move | Line => [z] | _ => []
  end.
Definition writable (t : ptype) : bool := match t with Undefined | QClose => false | _ => true end.
Definition offs (t : triple) : Prop := gptype (fst (fst t)) = OffCurve /\ gptype (snd (fst t)) = OffCurve.

Lemma flat_length l : length (flat l) = 3 * length l.
Proof. induction l as [|[[x y] z] l IH]; [reflexivity|]. cbn [flat flat_map flat1]. rewrite app_length. fold (flat l). cbn [length]. lia. Qed.

Lemma flat_nth l : forall m,
  nth_error (flat l) (3 * m) = option_map (fun t => fst (fst t)) (nth_error l m) /\
  nth_error (flat l) (3 * m + 1) = option_map (fun t => snd (fst t)) (nth_error l m) /\
  nth_error (flat l) (3 * m + 2) = option_map snd (nth_error l m).
Proof.
  induction l as [|[[x y] z] l IH]; intros m.
  - cbn [flat flat_map]. repeat split; destruct m; try reflexivity;
    match goal with |- nth_error [] ?n = _ => destruct n; reflexivity end.
  - destruct m as [|m]; [repeat split|].
    replace (3 * S m) with (S (S (S (3 * m)))) by lia. cbn [Nat.add]. exact (IH m).
Qed.

(** Filtering by index, triple by triple. *)
Lemma filter_flat (f : nat -> bool) : forall l k,
  (forall m t, nth_error l m = Some t ->
     f (k + 3 * m) = ptype_eqb (type_of t) Curve /\
     f (k + 3 * m + 1) = (ptype_eqb (type_of t) Curve || ptype_eqb (type_of t) QCurve) /\
     f (k + 3 * m + 2) = negb (ptype_eqb (type_of t) OffCurve)) ->
  (forall t, In t l -> writable (type_of t) = true) ->
  map snd (filter (fun it => f (fst it)) (combine (seq k (3 * length l)) (flat l))) = flat_map kept1 l.
Proof.
  induction l as [|[[x y] z] l IH]; intros k Hf Hw; [reflexivity|].
  cbn [length]. replace (3 * S (length l)) with (S (S (S (3 * length l)))) by lia.
  cbn [seq flat flat_map flat1 app]. fold (flat l). cbn [combine filter fst].
  destruct (Hf 0 (x, y, z) eq_refl) as (H0 & H1 & H2). unfold type_of in *. cbn [snd] in *.
  rewrite Nat.add_0_r in *. replace (k + 1) with (S k) in H1 by lia. replace (k + 2) with (S (S k)) in H2 by lia.
  rewrite H0, H1, H2.
  assert (map snd (filter (fun it => f (fst it)) (combine (seq (S (S (S k))) (3 * length l)) (flat l))) = flat_map kept1 l) as E.
  { apply IH; [|intros t Ht; apply Hw; now right]. intros m t Hm. specialize (Hf (S m) t Hm).
    replace (k + 3 * S m) with (S (S (S k)) + 3 * m) in Hf by lia. exact Hf. }
  specialize (Hw (x, y, z) (or_introl eq_refl)). cbn [snd] in Hw. cbn [kept1].
  destruct (gptype z); cbn [ptype_eqb orb negb writable map snd app] in *; try discriminate; rewrite E; reflexivity.
Qed.

Lemma combine_seq_In {A} (l : list A) : forall k i x,
  In (i, x) (combine (seq k (length l)) l) <-> k <= i /\ nth_error l (i - k) = Some x.
Proof.
  induction l as [|y l IH]; intros k i x; cbn [length seq combine].
  - split; [intros []|]. intros [_ H]. destruct (i - k); discriminate.
  - cbn [In]. rewrite IH. split.
    + intros [[= <- <-]|[H1 H2]]; [rewrite Nat.sub_diag; auto|]. split; [lia|].
      replace (i - k) with (S (i - S k)) by lia. exact H2.
    + intros [H1 H2]. destruct (Nat.eq_dec i k) as [->|Hne]; [left; rewrite Nat.sub_diag in H2; cbn in H2; congruence|].
      right. split; [lia|]. replace (i - k) with (S (i - S k)) in H2 by lia. exact H2.
Qed.

Lemma oncurve_types_In c i t : In (i, t) (oncurve_types c) <->
  t <> OffCurve /\ exists g, nth_error c i = Some g /\ gptype g = t.
Proof.
  unfold oncurve_types. rewrite filter_In. cbn [snd].
  rewrite <- (map_length gptype c), combine_seq_In, Nat.sub_0_r, nth_error_map.
  destruct (ptype_eqb_spec t OffCurve) as [->|Hne]; cbn [negb].
  - split; [intros [_ X]; discriminate|intros [X _]; congruence].
  - split.
    + intros [[_ H] _]. split; [assumption|]. destruct (nth_error c i); [|discriminate]. cbn in H. injection H as <-. eauto.
    + intros [_ (g & -> & <-)]. split; [split; [lia|reflexivity]|reflexivity].
Qed.

Lemma keep_for_spec i t :
  (writable t = true -> t <> OffCurve -> exists ks, keep_for i t = Ok ks /\ forall j, In j ks <->
     (j = i \/ (t = QCurve \/ t = Curve) /\ j + 1 = i \/ t = Curve /\ j + 2 = i)) /\
  (writable t = false -> keep_for i t = Panic).
Proof.
  split; [|destruct t; cbn; congruence].
  intros Hw Hn. destruct t; cbn [writable] in *; try congruence; cbn [keep_for];
  [|destruct i as [|[|i]]|destruct i as [|i]|]; eexists; (split; [reflexivity|]); intros j; cbn [In];
  intuition (try congruence; try lia).
Qed.

Lemma valid_writable t : is_valid_oncurve t = (writable t && negb (ptype_eqb t OffCurve)).
Proof. now destruct t. Qed.

Lemma mem_In j l : existsb (Nat.eqb j) l = true <-> In j l.
Proof.
  rewrite existsb_exists. split; [intros (x & Hx & E); apply Nat.eqb_eq in E; now subst|].
  intros H. exists j. split; [assumption|]. apply Nat.eqb_refl.
Qed.

Lemma filter_fst_length {A} (f : nat -> bool) : forall (l : list A) k,
  length (filter (fun it => f (fst it)) (combine (seq k (length l)) l)) = length (filter f (seq k (length l))).
Proof.
  induction l as [|x l IH]; intros k; [reflexivity|]. cbn [length seq combine filter fst].
  destruct (f k); cbn [length]; now rewrite IH.
Qed.
Lemma filter_mem_length n l : NoDup l -> (forall i, In i l -> i < n) ->
  length (filter (fun i => existsb (Nat.eqb i) l) (seq 0 n)) = length l.
Proof.
  intros Hd Hi. apply Permutation_length, NoDup_Permutation; [apply NoDup_filter, seq_NoDup|assumption|].
  intros i. rewrite filter_In, mem_In, in_seq. split; [tauto|]. intros H. specialize (Hi i H). split; [lia|assumption].
Qed.

(** Positions in [flat l] are 3m, 3m+1 or 3m+2. *)
Lemma flat_on l i g : Forall offs l -> nth_error (flat l) i = Some g -> gptype g <> OffCurve ->
  exists m t, i = 3 * m + 2 /\ nth_error l m = Some t /\ g = snd t.
Proof.
  intros Ho Hi Hg. rewrite Forall_forall in Ho. pose proof (Nat.div_mod i 3) as D.
  pose proof (Nat.mod_upper_bound i 3) as M. set (m := i / 3) in *. set (r := i mod 3) in *.
  assert (i = 3 * m + r) as E by lia. destruct (flat_nth l m) as (F0 & F1 & F2).
  rewrite E in Hi. destruct r as [|[|[|r]]]; [| | |lia].
  - rewrite Nat.add_0_r, F0 in Hi. destruct (nth_error l m) as [t|] eqn:X; [|discriminate]. cbn in Hi. injection Hi as <-.
    exfalso. apply Hg, (Ho t), (nth_error_In _ _ X).
  - rewrite F1 in Hi. destruct (nth_error l m) as [t|] eqn:X; [|discriminate]. cbn in Hi. injection Hi as <-.
    exfalso. apply Hg, (Ho t), (nth_error_In _ _ X).
  - rewrite F2 in Hi. destruct (nth_error l m) as [t|] eqn:X; [|discriminate]. cbn in Hi. injection Hi as <-.
    exists m, t. auto.
Qed.

Lemma cleanup_ok dbg l : Forall offs l -> (forall t, In t l -> writable (type_of t) = true) ->
  cleanup_offcurves dbg (flat l) = Ok (flat_map kept1 l).
Proof.
  intros Ho Hw. unfold cleanup_offcurves. set (types := oncurve_types (flat l)).
  assert (Ht : forall i t, In (i, t) types -> exists m x, i = 3 * m + 2 /\ nth_error l m = Some x /\ t = type_of x /\ t <> OffCurve).
  { intros i t H. apply oncurve_types_In in H as (Hn & g & Hg & <-).
    destruct (flat_on l i g Ho Hg Hn) as (m & x & -> & Hx & ->). exists m, x. auto. }
  assert (Ht' : forall m x, nth_error l m = Some x -> type_of x <> OffCurve -> In (3 * m + 2, type_of x) types).
  { intros m x Hx Hn. apply oncurve_types_In. split; [assumption|]. exists (snd x). split; [|reflexivity].
    destruct (flat_nth l m) as (_ & _ & ->). now rewrite Hx. }
  assert (forallb (fun it => is_valid_oncurve (snd it)) types = true) as ->.
  { apply forallb_forall. intros [i t] H. destruct (Ht i t H) as (m & x & _ & Hx & -> & Hn). cbn [snd].
    rewrite valid_writable, (Hw x (nth_error_In _ _ Hx)). destruct (ptype_eqb_spec (type_of x) OffCurve); [congruence|reflexivity]. }
  rewrite andb_false_r.
  destruct (mapM (fun it => keep_for (fst it) (snd it)) types) as [kss|e|] eqn:E.
  2,3: exfalso.
  2:{ revert E. clearbody types. clear. induction types as [|[i t] ts IH]; cbn [mapM]; [discriminate|].
      destruct (keep_for (fst (i, t)) (snd (i, t))) eqn:K; cbn [bind]; [| |discriminate].
      - destruct (mapM _ ts); cbn [bind]; [discriminate| |discriminate]. intros X. apply IH. congruence.
      - cbn [fst snd] in K. destruct t; discriminate. }
  2:{ assert (forall it, In it types -> exists ks, keep_for (fst it) (snd it) = Ok ks) as Hk.
      { intros [i t] H. destruct (Ht i t H) as (m & x & _ & Hx & Et & Hn). cbn [fst snd].
        destruct (proj1 (keep_for_spec i t)) as (ks & Ek & _); [rewrite Et; apply (Hw x (nth_error_In _ _ Hx))|assumption|eauto]. }
      revert E. clearbody types. clear -Hk. induction types as [|it ts IH]; cbn [mapM]; [discriminate|].
      destruct (Hk it (or_introl eq_refl)) as (ks & ->). cbn [bind].
      destruct (mapM _ ts); cbn [bind]; [discriminate|discriminate|]. intros _. apply IH; [|reflexivity]. intros x Hx. apply Hk. now right. }
  cbn [bind]. apply mapM_ok in E. set (keep := nodup Nat.eq_dec (concat kss)).
  assert (Hin : forall j, In j keep <-> exists m x, nth_error l m = Some x /\ type_of x <> OffCurve /\
     (j = 3 * m + 2 \/ (type_of x = QCurve \/ type_of x = Curve) /\ j = 3 * m + 1 \/ type_of x = Curve /\ j = 3 * m)).
  { intros j. unfold keep. rewrite nodup_In, in_concat. split.
    - intros (ks & Hks & Hj). clear -E Ht Hks Hj Hw. induction E as [|[i t] ks' types' kss' Hk _ IH]; [destruct Hks|].
      destruct Hks as [<-|Hks]; [|apply IH; [intros i' t' X; apply Ht; now right|assumption]].
      destruct (Ht i t (or_introl eq_refl)) as (m & x & -> & Hx & -> & Hn). exists m, x. split; [assumption|]. split; [assumption|].
      destruct (proj1 (keep_for_spec (3 * m + 2) (type_of x))) as (ks & Ek & Hs); [apply Hw, (nth_error_In _ _ Hx)|assumption|].
      cbn [fst snd] in Hk. rewrite Ek in Hk. injection Hk as ->. apply Hs in Hj.
      destruct Hj as [Hj|[[Hj1 Hj]|[Hj1 Hj]]]; [left; lia|right; left; split; [assumption|lia]|right; right; split; [assumption|lia]].
    - intros (m & x & Hx & Hn & Hj). pose proof (Ht' m x Hx Hn) as Hi.
      destruct (proj1 (keep_for_spec (3 * m + 2) (type_of x))) as (ks & Ek & Hs); [apply Hw, (nth_error_In _ _ Hx)|assumption|].
      exists ks. split.
      + clear -E Hi Ek. induction E as [|it ks' types' kss' Hk _ IH]; [destruct Hi|].
        destruct Hi as [->|Hi]; [left; cbn [fst snd] in Hk; congruence|right; auto].
      + apply Hs. destruct Hj as [Hj|[[Hj1 Hj]|[Hj1 Hj]]]; [left; lia|right; left; split; [assumption|lia]|right; right; split; [assumption|lia]]. }
  assert (length (map snd (filter (fun it : nat * glifpoint => existsb (Nat.eqb (fst it)) keep) (combine (seq 0 (length (flat l))) (flat l)))) = length keep) as Hlen.
  { rewrite map_length, (filter_fst_length (fun i => existsb (Nat.eqb i) keep)). apply filter_mem_length; [apply NoDup_nodup|].
    intros i Hi. apply Hin in Hi as (m & x & Hx & _ & Hj). assert (m < length l) by (apply nth_error_Some; congruence).
    rewrite flat_length. lia. }
  rewrite Hlen, Nat.eqb_refl. cbn [negb]. rewrite andb_false_r. f_equal. rewrite flat_length.
  apply (filter_flat (fun i => existsb (Nat.eqb i) keep)); [|assumption]. intros m x Hx. cbn [Nat.add].
  assert (forall j b, (In j keep <-> b = true) -> existsb (Nat.eqb j) keep = b) as Hb.
  { intros j b H. rewrite <- mem_In in H. destruct b, (existsb (Nat.eqb j) keep); intuition congruence. }
  repeat split; apply Hb; rewrite Hin; (split; [intros (m' & x' & Hx' & Hn & Hj)|intros H]).
  - assert (m' = m /\ type_of x' = Curve) as [-> Hc] by (destruct Hj as [Hj|[[_ Hj]|[Hc Hj]]]; [lia|lia|split; [lia|assumption]]).
    rewrite Hx in Hx'. injection Hx' as <-. now rewrite Hc.
  - exists m, x. split; [assumption|]. destruct (type_of x); try discriminate. split; [discriminate|]. auto.
  - assert (m' = m /\ (type_of x' = QCurve \/ type_of x' = Curve)) as [-> Hc] by (destruct Hj as [Hj|[[Hc Hj]|[Hc Hj]]]; [lia|split; [lia|assumption]|lia]).
    rewrite Hx in Hx'. injection Hx' as <-. now destruct Hc as [-> | ->].
  - exists m, x. split; [assumption|]. destruct (type_of x); try discriminate; (split; [discriminate|]); auto.
  - assert (m' = m) as -> by (destruct Hj as [Hj|[[Hc Hj]|[Hc Hj]]]; lia). rewrite Hx in Hx'. injection Hx' as <-.
    destruct (ptype_eqb_spec (type_of x) OffCurve); [congruence|reflexivity].
  - exists m, x. split; [assumption|]. destruct (ptype_eqb_spec (type_of x) OffCurve); [discriminate|]. auto.
Qed.

Lemma cleanup_panic dbg l t : Forall offs l -> In t l -> writable (type_of t) = false ->
  cleanup_offcurves dbg (flat l) = Panic.
Proof.
  intros Ho Hin Hw. unfold cleanup_offcurves. set (types := oncurve_types (flat l)).
  apply In_nth_error in Hin as (m & Hm).
  assert (In (3 * m + 2, type_of t) types) as Hi.
  { apply oncurve_types_In. split; [intros X; rewrite X in Hw; discriminate|]. exists (snd t). split; [|reflexivity].
    destruct (flat_nth l m) as (_ & _ & ->). now rewrite Hm. }
  destruct (dbg && _); [reflexivity|].
  assert (mapM (fun it => keep_for (fst it) (snd it)) types = Panic) as ->; [|reflexivity].
  clearbody types. clear -Hi Hw. induction types as [|[i s] types IH]; [destruct Hi|]. cbn [mapM fst snd].
  destruct Hi as [[= -> ->]|Hi].
  - now rewrite (proj2 (keep_for_spec _ _) Hw).
  - destruct (keep_for i s) eqn:K; cbn [bind]; [rewrite (IH Hi); reflexivity| |reflexivity].
    destruct s; discriminate.
Qed.

Lemma app_nil_both {A} (l m : list A) : l ++ m = [] <-> l = [] /\ m = [].
Proof. destruct l; cbn; [tauto|]. split; [discriminate|intros [X _]; discriminate]. Qed.

Lemma last_cons_default {A} (x : A) l d : last (x :: l) d = last l x.
Proof.
  revert x d. induction l as [|y l IH]; intros x d; [reflexivity|].
  change (last (y :: l) d = last (y :: l) x). now rewrite !IH.
Qed.

(** ** The list written for a contour *)
Section Written.
Context (L : numlib) {PD : Type}.
Implicit Types (p q next n z : point PD) (c : list (point PD)).

Definition triple_of q p : triple := (gp_from_handle L q WA, gp_from_handle L p WB, gp_of_point L p).
Fixpoint triples q c : list triple :=
  match c with [] => [] | p :: t => triple_of q p :: triples p t end.

Lemma triples_offs q c : Forall offs (triples q c).
Proof.
  revert q. induction c as [|p c IH]; intros q; constructor; [|apply IH]. unfold offs, triple_of. cbn [fst snd].
  unfold gp_from_handle. now destruct (handle_or_colocated q WA _ _), (handle_or_colocated p WB _ _).
Qed.
Lemma triples_types q c : map type_of (triples q c) = map pptype c.
Proof. revert q. induction c as [|p c IH]; intros q; [reflexivity|]. cbn [triples map]. now rewrite IH. Qed.

Lemma interleave_triples q c :
  interleave3 (map (fun p => gp_from_handle L p WA) (removelast (q :: c))) (map (fun p => gp_from_handle L p WB) c) (map (gp_of_point L) c)
  = flat (triples q c).
Proof.
  revert q. induction c as [|p c IH]; intros q; [reflexivity|].
  rewrite removelast_cons by discriminate. cbn [map interleave3 triples flat flat_map flat1 triple_of app]. now rewrite IH.
Qed.

Lemma rotate_right1_snoc {A} (l : list A) x : rotate_right1 (l ++ [x]) = x :: l.
Proof. unfold rotate_right1. rewrite rev_app_distr. cbn. now rewrite rev_involutive. Qed.
Lemma rotate_right1_length {A} (l : list A) : length (rotate_right1 l) = length l.
Proof.
  destruct l as [|x l] using rev_ind; [reflexivity|]. rewrite rotate_right1_snoc, app_length. cbn. lia.
Qed.

Lemma into_cleanup dbg fuel p t :
  into_glifpoints L dbg fuel (p :: t) =
  match cleanup_offcurves dbg (flat (triples (last t p) (p :: t))) with
  | Ok kept => rotate_to_oncurve fuel kept
  | Err e => Some (Err e)
  | Panic => Some Panic
  end.
Proof.
  unfold into_glifpoints. rewrite <- interleave_triples.
  assert (rotate_right1 (map (fun q => gp_from_handle L q WA) (p :: t)) =
          map (fun q => gp_from_handle L q WA) (removelast (last t p :: p :: t))) as ->; [|reflexivity].
  rewrite removelast_cons by discriminate. rewrite (map_cons _ (last t p)).
  rewrite (app_removelast_last (l:=p :: t) p) at 1 by discriminate.
  replace (last (p :: t) p) with (last t p) by (destruct t; reflexivity).
  rewrite map_app. cbn [map]. now rewrite rotate_right1_snoc.
Qed.

Definition all_written p t : list glifpoint := flat_map kept1 (triples (last t p) (p :: t)).

Lemma kept_last l : flat_map kept1 l = [] \/ exists m x, flat_map kept1 l = m ++ [x] /\ offcurve x = false.
Proof.
  induction l as [|[[x y] z] l IH]; [now left|]. cbn [flat_map].
  destruct IH as [->|(m & w & -> & Hw)].
  - rewrite app_nil_r. cbn [kept1]. unfold offcurve. destruct (gptype z) eqn:E; auto; right.
    + exists [], z. now rewrite E.
    + exists [x; y], z. now rewrite E.
    + exists [y], z. now rewrite E.
    + exists [], z. now rewrite E.
  - right. exists (kept1 (x, y, z) ++ m), w. now rewrite app_assoc.
Qed.

Lemma off_eqb g : ptype_eqb (gptype g) OffCurve = offcurve g.
Proof. unfold offcurve. now destruct (gptype g). Qed.

(** The start is moved back to the last point when the list starts off-curve. *)
Definition started (l : list glifpoint) : list glifpoint :=
  match l with g :: _ => if offcurve g then rotate_right1 l else l | [] => [] end.

Lemma rotate_ok f l : flat_map kept1 l <> [] ->
  rotate_to_oncurve (S f) (flat_map kept1 l) = Some (Ok (started (flat_map kept1 l))).
Proof.
  intros Hne. destruct (kept_last l) as [E|(m & x & E & Hx)]; [congruence|]. rewrite E. unfold started.
  destruct (m ++ [x]) as [|g r] eqn:Em; [destruct m; discriminate|]. cbn [rotate_to_oncurve]. rewrite off_eqb.
  destruct (offcurve g); [|reflexivity]. rewrite <- Em, rotate_right1_snoc. unfold rotate_to_oncurve.
  destruct f; rewrite off_eqb, Hx; reflexivity.
Qed.

Definition no_on (c : list (point PD)) : Prop := forall p, In p c -> pptype p = OffCurve.

Lemma kept_nil_iff q c : (forall p, In p c -> writable (pptype p) = true) ->
  (flat_map kept1 (triples q c) = [] <-> no_on c).
Proof.
  revert q. induction c as [|p c IH]; intros q Hw.
  - split; [intros _ p []|reflexivity].
  - cbn [triples flat_map]. rewrite app_nil_both, IH by (intros x Hx; apply Hw; now right).
    specialize (Hw p (or_introl eq_refl)). unfold triple_of, kept1. cbn [gp_of_point gptype]. unfold no_on. split.
    + intros [H1 H2] x [<-|Hx]; [|auto]. destruct (pptype p); (reflexivity || discriminate).
    + intros H. split; [rewrite (H p (or_introl eq_refl)); reflexivity|]. intros x Hx. apply H. now right.
Qed.

(** Writing in full. *)
Lemma into_glifpoints_spec dbg f c :
  (c = [] \/ (exists p, In p c /\ (pptype p = Undefined \/ pptype p = QClose)) \/ no_on c ->
     into_glifpoints L dbg (S f) c = Some Panic) /\
  (forall p t, c = p :: t -> (forall x, In x c -> pptype x <> Undefined /\ pptype x <> QClose) -> ~ no_on c ->
     into_glifpoints L dbg (S f) c = Some (Ok (started (all_written p t)))).
Proof.
  assert (forall q c, (forall t, In t (triples q c) -> writable (type_of t) = true) <-> (forall x, In x c -> writable (pptype x) = true)) as Hwr.
  { intros q c0. pose proof (triples_types q c0) as E. split; intros H x Hx.
    - assert (In (pptype x) (map type_of (triples q c0))) as Y by (rewrite E; now apply in_map).
      apply in_map_iff in Y as (t & <- & Ht). auto.
    - assert (In (type_of x) (map pptype c0)) as Y by (rewrite <- E; now apply in_map).
      apply in_map_iff in Y as (t & <- & Ht). auto. }
  assert (forall t, writable t = true <-> t <> Undefined /\ t <> QClose) as Hwt.
  { intros t. destruct t; cbn; intuition congruence. }
  split.
  - intros H. destruct c as [|p t]; [reflexivity|]. rewrite into_cleanup.
    destruct (forallb (fun x => writable (pptype x)) (p :: t)) eqn:E.
    + pose proof (proj1 (forallb_forall _ _) E) as E'.
      assert (no_on (p :: t)) as Hn.
      { destruct H as [H|[(x & Hx & H)|H]]; [discriminate| |exact H]. specialize (E' x Hx). cbn in E'.
        destruct H as [H|H]; rewrite H in E'; discriminate. }
      rewrite cleanup_ok; [|apply triples_offs|apply Hwr; exact E'].
      rewrite (proj2 (kept_nil_iff _ _ E') Hn). reflexivity.
    + assert (exists x, In x (p :: t) /\ writable (pptype x) = false) as (x & Hx & Hb).
      { clear -E. induction (p :: t) as [|y l IH]; [discriminate|]. cbn in E. destruct (writable (pptype y)) eqn:Y.
        - destruct (IH E) as (x & Hx & Hb). exists x. split; [now right|assumption].
        - exists y. split; [now left|assumption]. }
      assert (In (pptype x) (map type_of (triples (last t p) (p :: t)))) as Y by (rewrite triples_types; now apply in_map).
      apply in_map_iff in Y as (tr & Et & Htr). rewrite (cleanup_panic dbg _ tr); [reflexivity|apply triples_offs|assumption|congruence].
  - intros p t -> Hw Hn. rewrite into_cleanup.
    assert (forall x, In x (p :: t) -> writable (pptype x) = true) as Hw' by (intros x Hx; apply Hwt, Hw, Hx).
    rewrite cleanup_ok; [|apply triples_offs|apply Hwr; exact Hw'].
    apply rotate_ok. intros X. apply Hn. now apply (kept_nil_iff (last t p)).
Qed.

(** More fuel does not change a result. *)
Lemma rotate_fuel : forall f f' l r, rotate_to_oncurve f l = Some r -> f <= f' -> rotate_to_oncurve f' l = Some r.
Proof.
  induction f as [|f IH]; intros f' l r H Hf; destruct l as [|g l]; cbn [rotate_to_oncurve] in H.
  - destruct f'; exact H.
  - destruct f'; cbn [rotate_to_oncurve]; destruct (ptype_eqb (gptype g) OffCurve); congruence.
  - destruct f'; exact H.
  - destruct f' as [|f']; [lia|]. cbn [rotate_to_oncurve]. destruct (ptype_eqb (gptype g) OffCurve); [|exact H].
    apply IH; [exact H|lia].
Qed.

(** ** Reading back *)

(** Reading the points of one contour from its on-curve start. *)
Hypothesis Hfloat : forall f, f32_of_iof (iof_of_f32 L f) = f.

Lemma placed_handle p w : placed (gp_from_handle L p w) = spot p (get_handle p w).
Proof.
  unfold placed, gp_from_handle, handle_or_colocated, spot.
  destruct (get_handle p w); cbn [position gp_from_x_y_type gx gy fst snd]; now rewrite !Hfloat.
Qed.

Definition out_handle p next : handle := match pptype next with Curve => spot p (pa p) | _ => Colocated end.
Definition in_handle p : handle := match pptype p with Curve => spot p (pb p) | _ => Colocated end.
Definition restored p next : point PD :=
  mkPoint (px p) (py p) (out_handle p next) (in_handle p) (pname p) (pptype p) (psmooth p) None.
(** The points read from what is written for [q], then [t], followed by [n]. *)
Fixpoint restore q t n : list (point PD) :=
  match t with [] => [restored q n] | p :: t' => restored q p :: restore p t' n end.

Definition curvy (t : ptype) : Prop := t = Line \/ t = Curve.
Definition offs_between q p : list glifpoint :=
  match pptype p with Curve => [gp_from_handle L q WA; gp_from_handle L p WB] | _ => [] end.

Lemma kept_curvy q p : curvy (pptype p) -> kept1 (triple_of q p) = offs_between q p ++ [gp_of_point L p].
Proof. unfold kept1, triple_of, offs_between. cbn [gp_of_point gptype]. intros [-> | ->]; reflexivity. Qed.

Lemma gp_handle_off q w : offcurve (gp_from_handle L q w) = true.
Proof. unfold gp_from_handle, offcurve. now destruct (handle_or_colocated q w _ _). Qed.
Lemma curvy_on p : curvy (pptype p) -> offcurve (gp_of_point L p) = false.
Proof. unfold offcurve. cbn. intros [-> | ->]; reflexivity. Qed.

(** Passing the off-curve points between two points. *)
Lemma built_between q p (x : point PD) l : curvy (pptype p) ->
  built x [] (offs_between q p ++ gp_of_point L p :: l) =
  with_a x (out_handle q p) :: built (made (gp_of_point L p) (offs_between q p)) [] l.
Proof.
  intros Hc. pose proof (curvy_on p Hc) as Hon. unfold offs_between, out_handle.
  destruct Hc as [Hp|Hp]; rewrite Hp; cbn [app built].
  - now rewrite Hon.
  - rewrite !gp_handle_off. cbn [app built]. rewrite Hon. cbn [app out_of]. now rewrite placed_handle.
Qed.
Lemma left_between q p l : curvy (pptype p) ->
  left_over [] (offs_between q p ++ gp_of_point L p :: l) = left_over [] l.
Proof.
  intros Hc. pose proof (curvy_on p Hc) as Hon. unfold offs_between.
  destruct Hc as [Hp|Hp]; rewrite Hp; cbn [app left_over].
  - now rewrite Hon.
  - rewrite !gp_handle_off. cbn [app left_over]. now rewrite Hon.
Qed.
Lemma in_between q p : in_of (offs_between q p) = in_handle p.
Proof. unfold offs_between, in_handle. destruct (pptype p); try reflexivity. cbn [in_of]. now rewrite placed_handle. Qed.
Lemma out_between q p : out_of (offs_between q p) = out_handle q p.
Proof. unfold offs_between, out_handle. destruct (pptype p); try reflexivity. cbn [out_of]. now rewrite placed_handle. Qed.

(** [x] is [q] as read so far. *)
Definition partly (x q : point PD) : Prop := forall h,
  with_a x h = mkPoint (px q) (py q) h (in_handle q) (pname q) (pptype q) (psmooth q) None.

Lemma made_partly q p : partly (made (gp_of_point L p) (offs_between q p)) p.
Proof.
  intros h. unfold with_a, made. cbn [px py pb pname pptype psmooth pdata]. rewrite in_between.
  cbn [gp_of_point gx gy gname gptype gsmooth]. now rewrite !Hfloat.
Qed.

Lemma tail_left q n : left_over [] (offs_between q n) = offs_between q n.
Proof.
  unfold offs_between. destruct (pptype n); try reflexivity. cbn [left_over]. now rewrite !gp_handle_off.
Qed.
Lemma tail_built (x : point PD) q n : built x [] (offs_between q n) = [with_a x (out_handle q n)].
Proof.
  rewrite <- out_between. unfold offs_between. destruct (pptype n); try reflexivity. cbn [built]. now rewrite !gp_handle_off.
Qed.

Lemma built_restore n : forall t q x, partly x q -> Forall (fun p => curvy (pptype p)) t ->
  built x [] (flat_map kept1 (triples q t) ++ offs_between (last t q) n) = restore q t n /\
  left_over [] (flat_map kept1 (triples q t) ++ offs_between (last t q) n) = offs_between (last t q) n.
Proof.
  induction t as [|p t IH]; intros q x Hx Hf.
  - cbn [triples flat_map app last restore]. rewrite tail_built, tail_left. split; [|reflexivity]. now rewrite Hx.
  - inversion_clear Hf as [|? ? Hp Ht]. cbn [triples flat_map restore]. rewrite kept_curvy by assumption.
    rewrite <- !app_assoc. cbn [app]. rewrite built_between, left_between by assumption.
    replace (last (p :: t) q) with (last t p) by (symmetry; apply last_cons_default).
    destruct (IH p (made (gp_of_point L p) (offs_between q p)) (made_partly q p) Ht) as [-> ->].
    split; [|reflexivity]. now rewrite Hx.
Qed.

(** No long runs. *)
Fixpoint scan (k : nat) (l : list glifpoint) : bool :=
  match l with
  | [] => true
  | g :: l => if offcurve g then (k <? 2) && scan (S k) l else scan 0 l
  end.
Lemma scan_short l : scan 0 l = true -> short_runs l.
Proof.
  intros H pre a b c r -> (Ha & Hb & Hc). revert H. generalize 0 as k.
  induction pre as [|g pre IH]; intros k; cbn [app scan].
  - rewrite Ha, Hb, Hc. rewrite !andb_true_iff, !Nat.ltb_lt. lia.
  - destruct (offcurve g); [rewrite andb_true_iff; intros [_ H]; eauto|eauto].
Qed.
Lemma scan_between q p l : curvy (pptype p) -> scan 0 (offs_between q p ++ gp_of_point L p :: l) = scan 0 l.
Proof.
  intros Hc. pose proof (curvy_on p Hc) as Hon. unfold offs_between.
  destruct Hc as [Hp|Hp]; rewrite Hp; cbn [app scan].
  - now rewrite Hon.
  - rewrite !gp_handle_off. cbn [Nat.ltb Nat.leb andb]. now rewrite Hon.
Qed.
Lemma scan_written n : forall t q, Forall (fun p => curvy (pptype p)) t ->
  scan 0 (flat_map kept1 (triples q t) ++ offs_between (last t q) n) = true.
Proof.
  induction t as [|p t IH]; intros q Hf.
  - cbn [triples flat_map app last]. unfold offs_between. destruct (pptype n); try reflexivity. cbn [scan]. now rewrite !gp_handle_off.
  - inversion_clear Hf as [|? ? Hp Ht]. cbn [triples flat_map]. rewrite kept_curvy by assumption.
    rewrite <- !app_assoc. cbn [app]. rewrite scan_between by assumption.
    replace (last (p :: t) q) with (last t p) by (symmetry; apply last_cons_default).
    now apply IH.
Qed.
Lemma form_written n : forall t q, Forall (fun p => curvy (pptype p)) t ->
  Forall in_form (flat_map kept1 (triples q t) ++ offs_between (last t q) n).
Proof.
  assert (forall q w, in_form (gp_from_handle L q w)) as Hh.
  { intros q w. left. pose proof (gp_handle_off q w) as E. unfold offcurve in E. now destruct (gptype _). }
  assert (forall q p, Forall in_form (offs_between q p)) as Hb.
  { intros q p. unfold offs_between. destruct (pptype p); auto. }
  intros t q Hf. apply Forall_app. split; [|apply Hb]. clear n. revert q.
  induction Hf as [|p t Hp _ IH]; intros q; [constructor|]. cbn [triples flat_map]. rewrite kept_curvy by assumption.
  apply Forall_app. split; [|apply IH]. apply Forall_app. split; [apply Hb|]. constructor; [|constructor]. right. exact Hp.
Qed.

Lemma restore_head q t n : exists r, restore q t n = restored q (match t with [] => n | p :: _ => p end) :: r /\ length r = length t.
Proof.
  revert q. induction t as [|p t IH]; intros q; [exists []; auto|]. destruct (IH p) as (r & E & Hr).
  exists (restore p t n). split; [reflexivity|]. rewrite E. cbn [length]. now rewrite Hr.
Qed.
Lemma restore_nth n : forall t q i p, nth_error (q :: t) i = Some p ->
  nth_error (restore q t n) i = Some (restored p (match nth_error (q :: t) (S i) with Some x => x | None => n end)).
Proof.
  induction t as [|x t IH]; intros q i p H.
  - destruct i as [|[|i]]; try discriminate. cbn in H. injection H as <-. reflexivity.
  - destruct i as [|i].
    + cbn in H. injection H as <-. reflexivity.
    + cbn [restore nth_error]. exact (IH x i p H).
Qed.
Lemma restore_length n t q : length (restore q t n) = S (length t).
Proof. destruct (restore_head q t n) as (r & -> & Hr). cbn [length]. now rewrite Hr. Qed.

Lemma restore_stored q t : stored_as (q :: t) (restore q t q).
Proof.
  split; [apply restore_length|]. intros i p n Hi Hn. exists (restored p n). repeat split.
  rewrite (restore_nth _ _ _ _ _ Hi). do 2 f_equal.
  assert (i < length (q :: t)) as Hlt by (apply nth_error_Some; congruence).
  unfold next_of in Hn. destruct (Nat.eq_dec (i + 1) (length (q :: t))) as [E|E].
  - rewrite E, Nat.mod_same in Hn by (cbn; lia). cbn [nth_error] in Hn. injection Hn as <-.
    destruct (nth_error (q :: t) (S i)) eqn:X; [|reflexivity]. assert (S i < length (q :: t)) by (apply nth_error_Some; congruence). lia.
  - rewrite Nat.mod_small in Hn by lia. replace (i + 1) with (S i) in Hn by lia. now rewrite Hn.
Qed.

(** Reading what is written from on-curve start [z] with the other points [m]. *)
Lemma read_from z m :
  (pptype z = Move \/ curvy (pptype z)) -> (pptype z = Move -> m <> []) -> Forall (fun p => curvy (pptype p)) m ->
  contour_of_glif L (gp_of_point L z :: flat_map kept1 (triples z m) ++ offs_between (last m z) z) = Ok (restore z m z).
Proof.
  intros Hz Hm Hf. set (l := flat_map kept1 (triples z m) ++ offs_between (last m z) z).
  assert (gptype (gp_of_point L z) = pptype z) as Et by reflexivity.
  assert (gptype (gp_of_point L z) = Move \/ gptype (gp_of_point L z) = Line \/ gptype (gp_of_point L z) = Curve) as Hty by (rewrite Et; exact Hz).
  assert (contour_of_glif (PD:=PD) L (gp_of_point L z :: l) = cubic_contour (gp_of_point L z :: l)) as ->.
  { unfold contour_of_glif. destruct Hty as [E|[E|E]]; rewrite E; reflexivity. }
  rewrite cubic_contour_built; [|exact Hty|now apply form_written|].
  2:{ apply scan_short. cbn [scan]. rewrite (on_not_off _ Hty). now apply scan_written. }
  f_equal. rewrite Et.
  destruct (ptype_eqb_spec (pptype z) Move) as [E|E].
  - assert (partly (made (gp_of_point L z) []) z) as Hpart.
    { intros h. unfold with_a, made, in_handle. rewrite E. cbn. now rewrite !Hfloat, E. }
    destruct (built_restore z m z _ Hpart Hf) as [Hr0 _]. fold l in Hr0. rewrite Hr0. specialize (Hm E). destruct m as [|p m]; [congruence|].
    destruct (restore_head z (p :: m) z) as (r & -> & Hr). destruct r; [discriminate|reflexivity].
  - (* the first point gets its incoming handle from the left-over points *)
    assert (forall x h l' os, exists y r, built (with_b (PD:=PD) x h) os l' = with_b y h :: r /\ built x os l' = y :: r) as Hwb.
    { clear. intros x h l'. induction l' as [|g l' IH]; intros os; cbn [built].
      - exists (with_a x (out_of os)), []. split; reflexivity.
      - destruct (offcurve g); [apply IH|]. exists (with_a x (out_of os)). eexists. split; reflexivity. }
    set (x := with_b (made (PD:=PD) (gp_of_point L z) []) (in_handle z)).
    assert (partly x z) as Hpart.
    { intros h. unfold x, with_a, with_b, made. cbn. now rewrite !Hfloat. }
    destruct (built_restore z m z x Hpart Hf) as [Hr Hl]. fold l in Hr, Hl. rewrite Hl, in_between.
    destruct (Hwb (made (gp_of_point L z) []) (in_handle z) l []) as (y & r & E1 & E2). fold x in E1.
    rewrite E2. cbn [map_first]. now rewrite <- E1, Hr.
Qed.

Lemma write_read_cubic dbg f c : cubic_contour_form c ->
  exists gps c', into_glifpoints L dbg (S f) c = Some (Ok gps) /\ contour_of_glif L gps = Ok c' /\
    forall p t, c = p :: t ->
      (pptype p <> Curve -> stored_as c c') /\
      (pptype p = Curve -> exists c1, one_earlier c c1 /\ stored_as c1 c').
Proof.
  intros (p & t & -> & Hp & Ht).
  assert (Forall (fun q => curvy (pptype q)) t) as Hct by exact Ht.
  assert (exists gps, into_glifpoints L dbg (S f) (p :: t) = Some (Ok gps) /\ gps = started (all_written p t)) as (gps & Hw & Eg).
  { eexists. split; [|reflexivity]. apply (proj2 (into_glifpoints_spec dbg f (p :: t)) p t eq_refl).
    - intros x [<-|Hx]; [destruct Hp as [[X _]|[X|X]]; rewrite X; split; discriminate|].
      pose proof (proj1 (Forall_forall _ _) Ht x Hx) as [X|X]; rewrite X; split; discriminate.
    - intros Hn. pose proof (Hn p (or_introl eq_refl)) as X. destruct Hp as [[Y _]|[Y|Y]]; congruence. }
  exists gps. rewrite Hw. destruct (ptype_eqb_spec (pptype p) Curve) as [Ec|Ec].
  - (* starts one point earlier *)
    destruct (exists_last (l:=p :: t)) as (m & z & Em); [discriminate|].
    assert (curvy (pptype z)) as Hz.
    { assert (In z (p :: t)) as X by (rewrite Em; apply in_app_iff; right; now left).
      destruct X as [<-|X]; [now right|]. exact (proj1 (Forall_forall _ _) Hct z X). }
    assert (Forall (fun q => curvy (pptype q)) m) as Hm.
    { apply Forall_forall. intros x Hx. assert (In x (p :: t)) as X by (rewrite Em; apply in_app_iff; now left).
      destruct X as [<-|X]; [now right|]. exact (proj1 (Forall_forall _ _) Hct x X). }
    assert (last t p = z) as Elast.
    { rewrite <- (last_cons_default p t p), Em. apply last_last. }
    assert (triples z (m ++ [z]) = triples z m ++ [triple_of (last m z) z]) as Etr.
    { clear. assert (forall q x, triples q (m ++ [x]) = triples q m ++ [triple_of (last m q) x]) as H; [|apply H].
      induction m as [|y m IH]; intros q x; [reflexivity|]. cbn [app triples]. now rewrite IH, last_cons_default. }
    assert (gps = gp_of_point L z :: flat_map kept1 (triples z m) ++ offs_between (last m z) z) as Eg2.
    { rewrite Eg. unfold all_written. rewrite Elast, Em, Etr, flat_map_app. cbn [flat_map]. rewrite app_nil_r, kept_curvy by assumption.
      rewrite app_assoc. unfold started.
      assert (exists g r, flat_map kept1 (triples z m) ++ offs_between (last m z) z = g :: r /\ offcurve g = true) as (g & r & E & Hg).
      { destruct m as [|y m].
        - cbn [app] in Em. injection Em as -> _. cbn [triples flat_map app last]. unfold offs_between. rewrite Ec.
          do 2 eexists. split; [reflexivity|]. apply gp_handle_off.
        - cbn [app] in Em. injection Em as <- _. cbn [triples flat_map]. rewrite kept_curvy by (now right).
          unfold offs_between at 1. rewrite Ec. do 2 eexists. split; [reflexivity|]. apply gp_handle_off. }
      rewrite E. cbn [app]. rewrite Hg. change (g :: r ++ [gp_of_point L z]) with ((g :: r) ++ [gp_of_point L z]).
      now rewrite rotate_right1_snoc. }
    exists (restore z m z). split; [reflexivity|]. split.
    { rewrite Eg2. apply read_from; [now right| |assumption]. intros X. destruct Hz as [Y|Y]; congruence. }
    intros p0 t0 [= <- <-]. split; [congruence|]. intros _. exists (z :: m). split; [exists z, m; auto|]. apply restore_stored.
  - assert (gps = gp_of_point L p :: flat_map kept1 (triples p t) ++ offs_between (last t p) p) as Eg2.
    { rewrite Eg. unfold all_written. cbn [triples flat_map].
      assert (kept1 (triple_of (last t p) p) = [gp_of_point L p]) as ->.
      { unfold kept1, triple_of. cbn. destruct Hp as [[X _]|[X|X]]; rewrite X in *; (reflexivity || congruence). }
      assert (offs_between (last t p) p = []) as ->.
      { unfold offs_between. destruct Hp as [[X _]|[X|X]]; rewrite X in *; (reflexivity || congruence). }
      rewrite app_nil_r. cbn [app started].
      assert (offcurve (gp_of_point L p) = false) as ->; [|reflexivity].
      unfold offcurve. cbn. destruct Hp as [[X _]|[X|X]]; rewrite X; reflexivity. }
    exists (restore p t p). split; [reflexivity|]. split.
    { rewrite Eg2. apply read_from; [|intros X; destruct Hp as [[_ Y]|[Y|Y]]; congruence|assumption].
      destruct Hp as [[X _]|[X|X]]; [now left|right; now left|congruence]. }
    intros p0 t0 [= <- <-]. split; [|congruence]. intros _. apply restore_stored.
Qed.

End Written.

(** ** Quadratic contours *)
Section Quadratic.
Context (L : numlib) {PD : Type}.

Definition plain_quad (p : point PD) : Prop :=
  pb p = Colocated /\ (pptype p = OffCurve \/ pptype p = Line \/ pptype p = QCurve).

Lemma with_implied_plain : forall gc, Forall (fun h => gptype h = OffCurve \/ gptype h = Line \/ gptype h = QCurve) gc ->
  Forall plain_quad (with_implied (half L) gc).
Proof.
  assert (forall g, gptype g = OffCurve \/ gptype g = Line \/ gptype g = QCurve -> plain_quad (copied g)) as Hc by (intros g H; split; [reflexivity|exact H]).
  assert (forall g h, plain_quad (half L g h)) as Hh by (intros; split; [reflexivity|right; now right]).
  induction gc as [|g t IH]; intros Hf; [constructor|]. inversion_clear Hf as [|? ? Hg Ht].
  destruct t as [|h t]; [constructor; [auto|constructor]|]. rewrite with_implied_2.
  destruct (offcurve g), (offcurve h); repeat (apply Forall_cons; [solve [auto]|]); auto.
Qed.

Lemma written_plain : forall c q, Forall plain_quad c -> flat_map kept1 (triples L q c) = flat_map (quad_written L) c.
Proof.
  induction c as [|p c IH]; intros q Hf; [reflexivity|]. inversion_clear Hf as [|? ? Hp Hc].
  cbn [triples flat_map]. rewrite IH by assumption. f_equal. destruct Hp as [Hb Hty].
  unfold triple_of, kept1, quad_written, on_at, off_at, gp_from_handle, handle_or_colocated, get_handle. rewrite Hb.
  cbn [gp_of_point gptype]. destruct Hty as [E|[E|E]]; rewrite E; unfold gp_of_point; rewrite ?E; reflexivity.
Qed.

Lemma write_plain dbg f p t : Forall plain_quad (p :: t) -> pptype p = QCurve ->
  exists gps, into_glifpoints L dbg (S f) (p :: t) = Some (Ok gps) /\ one_earlier (flat_map (quad_written L) (p :: t)) gps.
Proof.
  intros Hf Hq. eexists. split.
  - apply (proj2 (into_glifpoints_spec L dbg f (p :: t)) p t eq_refl).
    + intros x Hx. destruct (proj1 (Forall_forall _ _) Hf x Hx) as [_ [E|[E|E]]]; rewrite E; split; discriminate.
    + intros Hn. specialize (Hn p (or_introl eq_refl)). congruence.
  - unfold all_written. rewrite written_plain by assumption.
    assert (exists r, flat_map (quad_written L) (p :: t) = off_at L p :: r) as (r & E).
    { cbn [flat_map]. unfold quad_written at 1. rewrite Hq. eexists. reflexivity. }
    rewrite E. cbn [started off_at offcurve gptype].
    destruct (exists_last (l:=off_at L p :: r)) as (m & x & Em); [discriminate|]. unfold off_at in *. rewrite Em.
    exists x, m. split; [reflexivity|]. apply rotate_right1_snoc.
Qed.

Lemma write_read_quadratic dbg f gc z : quadratic_form gc -> last gc z = z -> 
  exists c, contour_of_glif (PD:=PD) L gc = Ok c /\
    if offcurve z then into_glifpoints L dbg (S f) c = Some Panic
    else exists gps, into_glifpoints L dbg (S f) c = Some (Ok gps) /\ one_earlier (flat_map (quad_written L) c) gps.
Proof.
  intros (g & t & -> & Hg & Ht) Hz. rewrite last_cons_default in Hz.
  pose proof (read_quadratic (PD:=PD) L g t z (or_introl Hg) Hz) as E. eexists. split; [exact E|].
  assert (Forall plain_quad (with_implied (half L) (g :: t))) as Hp.
  { apply with_implied_plain. constructor; [right; now right|assumption]. }
  destruct (offcurve z).
  - apply (proj1 (into_glifpoints_spec L dbg f _)). right. left. exists (closing L z g). split; [|now right].
    apply in_app_iff. right. now left.
  - rewrite app_nil_r. destruct (with_implied_ne (half (PD:=PD) L) g t) as (w & Ew). rewrite Ew in *.
    apply write_plain; [assumption|]. exact Hg.
Qed.
End Quadratic.

(** ** Contours restored exactly *)
Lemma next_some {A} (c : list A) i x : nth_error c i = Some x -> exists y, nth_error c (next_of (length c) i) = Some y.
Proof.
  intros H. assert (i < length c) as Hi by (apply nth_error_Some; congruence).
  assert (next_of (length c) i < length c) as Hn by (apply Nat.mod_upper_bound; lia).
  destruct (nth_error c (next_of (length c) i)) eqn:E; [eauto|]. apply nth_error_None in E. lia.
Qed.

Lemma storable_exact {PD} (c c' : list (point PD)) : storable c -> stored_as c c' -> c' = c.
Proof.
  intros Hs [Hl Hc]. apply nth_error_ext. intros i. destruct (nth_error c i) as [p|] eqn:E.
  - destruct (next_some c i p E) as (q & Eq). destruct (Hs i p q E Eq) as (Hd & Ha & Hb).
    destruct (Hc i p q E Eq) as (p' & E' & Hsh & Hd' & Ha' & Hb'). rewrite E'. f_equal.
    destruct p as [x y a b n t s d], p' as [x' y' a' b' n' t' s' d']. unfold shown in Hsh. cbn in *.
    injection Hsh as -> -> -> -> ->. subst d d'. f_equal.
    + rewrite Ha'. clear -Ha. destruct Ha as [H1 H2].
      destruct (pptype q), a; cbn; try reflexivity; exfalso; try (now apply H1); specialize (H2 ltac:(discriminate)); discriminate.
    + rewrite Hb'. clear -Hb. destruct Hb as [H1 H2].
      destruct t, b; cbn; try reflexivity; exfalso; try (now apply H1); specialize (H2 ltac:(discriminate)); discriminate.
  - apply nth_error_None in E. apply nth_error_None. lia.
Qed.

Lemma storable_earlier {PD} (c c1 : list (point PD)) : one_earlier c c1 -> storable c -> storable c1.
Proof.
  intros (x & m & -> & ->) Hs i p q Hp Hq.
  assert (forall k, k < length m -> nth_error (x :: m) (S k) = nth_error (m ++ [x]) k) as H1.
  { intros k Hk. cbn [nth_error]. now rewrite nth_error_app1. }
  assert (nth_error (m ++ [x]) (length m) = Some x) as H2.
  { rewrite nth_error_app2, Nat.sub_diag by lia. reflexivity. }
  assert (i < S (length m)) as Hi by (change (S (length m)) with (length (x :: m)); apply nth_error_Some; congruence).
  assert (length (m ++ [x]) = S (length m)) as Hl by (rewrite app_length; cbn; lia).
  unfold storable, next_of in *. cbn [length] in Hq. rewrite Hl in Hs.
  destruct i as [|i].
  - cbn in Hp. injection Hp as <-. apply (Hs (length m) x q H2).
    replace (length m + 1) with (S (length m)) by lia. rewrite Nat.mod_same by lia.
    destruct m as [|y m]; [exact Hq|]. cbn [length] in *. rewrite Nat.mod_small in Hq by lia. exact Hq.
  - rewrite H1 in Hp by lia. apply (Hs i p q Hp). rewrite Nat.mod_small by lia.
    destruct (Nat.eq_dec (S i + 1) (S (length m))) as [E|E].
    + rewrite E, Nat.mod_same in Hq by lia. cbn in Hq. injection Hq as <-. replace (i + 1) with (length m) by lia. exact H2.
    + rewrite Nat.mod_small in Hq by lia. replace (S i + 1) with (S (i + 1)) in Hq by lia. rewrite H1 in Hq by lia. exact Hq.
Qed.
