(** Edits of MFEK contours. *)
Require Import Coq.Lists.List Coq.Arith.Arith Coq.micromega.Lia.
Require Import Verif.Model.Base Verif.Model.Text Verif.Model.Float Verif.Model.Point Verif.Model.Contour
  Verif.Model.Mpoint Verif.Model.Mfek Verif.Spec.MfekSpec Verif.Spec.EditSpec Verif.Facts.MfekFacts.
Import ListNotations.

Section Edits.
Context {PD : Type}.
Implicit Types c d : mcontour PD.

Lemma settings_remove (o o' : option (operations (mcontour PD))) n : op_remove o n = Ok o' -> settings o' = settings o.
Proof. destruct o as [[v| |]|]; cbn; try (intros [= <-]; reflexivity). unfold vws_remove. destruct (vec_remove _ _); cbn; try discriminate. now intros [= <-]. Qed.
Lemma settings_insert (o o' : option (operations (mcontour PD))) n : op_insert o n = Ok o' -> settings o' = settings o.
Proof.
  destruct o as [[v| |]|]; cbn; try (intros [= <-]; reflexivity). unfold vws_insert. destruct (idx _ _); cbn; try discriminate.
  destruct (vec_insert _ _ _); cbn; try discriminate. now intros [= <-].
Qed.
Lemma settings_sub (o o' : option (operations (mcontour PD))) b e : op_sub o b e = Ok o' -> settings o' = settings o.
Proof.
  destruct o as [[v| |]|]; cbn [op_sub]; try (intros [= <-]; reflexivity). unfold vws_sub. destruct (split_at _ _); cbn [bind]; try discriminate.
  destruct (e + 1 <? b); [discriminate|]. destruct (split_at _ _); cbn [bind]; try discriminate. now intros [= <-].
Qed.
Lemma settings_append (o : option (operations (mcontour PD))) d : settings (op_append o d) = settings o.
Proof. destruct o as [[v| |]|]; cbn; try reflexivity. unfold vws_append. now destruct (mc_op d) as [[w| |]|]. Qed.

Lemma op_remove_no_err (o : option (operations (mcontour PD))) n x : op_remove o n <> Err x.
Proof. destruct o as [[v| |]|]; cbn; try discriminate. unfold vws_remove. unfold vec_remove. destruct (n <? _); cbn; discriminate. Qed.

(** The kind and the flag. *)
Definition kind_flag (i : inner PD) : inner_type * option bool :=
  match i with Cubic _ => (TCubic, None) | Quad _ => (TQuad, None) | Hyper _ b => (THyper, Some b) end.
Lemma kf_delete i i' n : inner_delete i n = Ok i' -> kind_flag i' = kind_flag i.
Proof. destruct i; cbn; destruct (vec_remove _ _); cbn; try discriminate; now intros [= <-]. Qed.
Lemma kf_insert i i' n p : insert_point i n p = Ok i' -> kind_flag i' = kind_flag i.
Proof. destruct i, p; cbn; try discriminate; destruct (vec_insert _ _ _); cbn; try discriminate; now intros [= <-]. Qed.
Lemma kf_sub i i' b e : inner_sub i b e = Ok i' -> kind_flag i' = kind_flag i.
Proof. destruct i; cbn; destruct (slice _ _ _); cbn; try discriminate; now intros [= <-]. Qed.
Lemma kf_append i i' j : inner_append i j = Some i' -> kind_flag i' = kind_flag i.
Proof. destruct i, j; cbn; try discriminate; now intros [= <-]. Qed.
Lemma kf_reverse i : kind_flag (inner_reverse i) = kind_flag i.
Proof. now destruct i. Qed.

Lemma kf_edit c e c' : do_edit c e = Ok c' -> kind_flag (mc_inner c') = kind_flag (mc_inner c).
Proof.
  destruct e as [n|n p|d|b e|]; cbn [do_edit].
  - unfold mc_delete. destruct (inner_delete _ _) eqn:E; cbn [bind]; try discriminate. destruct (op_remove _ _); cbn [bind]; try discriminate.
    intros [= <-]. now apply kf_delete in E.
  - destruct (insert_point _ _ _) eqn:E; cbn [bind]; try discriminate. destruct (op_insert _ _); cbn [bind]; try discriminate.
    intros [= <-]. now apply kf_insert in E.
  - unfold mc_append. destruct (inner_append _ _) eqn:E; intros [= <-]; [|reflexivity]. now apply kf_append in E.
  - unfold mc_sub. destruct (inner_sub _ _ _) eqn:E; cbn [bind]; try discriminate. destruct (op_sub _ _ _); cbn [bind]; try discriminate.
    intros [= <-]. now apply kf_sub in E.
  - intros [= <-]. apply kf_reverse.
Qed.
Lemma settings_edit c e c' : do_edit c e = Ok c' -> settings (mc_op c') = settings (mc_op c).
Proof.
  destruct e as [n|n p|d|b e|]; cbn [do_edit].
  - unfold mc_delete. destruct (inner_delete _ _); cbn [bind]; try discriminate. destruct (op_remove _ _) eqn:E; cbn [bind]; try discriminate.
    intros [= <-]. now apply settings_remove in E.
  - destruct (insert_point _ _ _); cbn [bind]; try discriminate. destruct (op_insert _ _) eqn:E; cbn [bind]; try discriminate.
    intros [= <-]. now apply settings_insert in E.
  - unfold mc_append. destruct (inner_append _ _); intros [= <-]; [|reflexivity]. apply settings_append.
  - unfold mc_sub. destruct (inner_sub _ _ _); cbn [bind]; try discriminate. destruct (op_sub _ _ _) eqn:E; cbn [bind]; try discriminate.
    intros [= <-]. now apply settings_sub in E.
  - now intros [= <-].
Qed.
Lemma kf_same c c' : kind_flag (mc_inner c') = kind_flag (mc_inner c) <-> same_kind c c' /\ open_flag c' = open_flag c.
Proof.
  unfold same_kind, open_flag. destruct (mc_inner c), (mc_inner c'); cbn; split; try discriminate; try (intros [[] _]; fail);
    try (intros [_ H]); try (intros H); try split; auto; congruence.
Qed.
Lemma fits_insert c n p i : insert_point (mc_inner c) n p = Ok i -> fits_in c p.
Proof. unfold fits_in. destruct (mc_inner c), p; cbn; try discriminate; auto. Qed.

Lemma edited_ok c e c' : do_edit c e = Ok c' -> edited c e (points c').
Proof.
  destruct e as [n|n p|d|b e|]; cbn [do_edit edited].
  - unfold mc_delete. destruct (delete_spec c n) as [(_ & i & -> & W)|(_ & ->)]; cbn [bind]; [|discriminate].
    destruct (op_remove _ _); cbn [bind]; try discriminate. intros [= <-]. apply W.
  - destruct (insert_point _ _ _) as [x| |] eqn:E; cbn [bind]; try discriminate. pose proof (fits_insert _ _ _ _ E) as F.
    destruct (insert_spec c n p F) as [(_ & i & E' & W)|(_ & E')]; [|congruence]. destruct (op_insert _ _); cbn [bind]; try discriminate.
    intros [= <-]. replace x with i by congruence. apply W.
  - unfold mc_append. destruct (append_spec c d) as [(K & i & -> & W)|(K & ->)]; intros [= <-]; [left|right]; split; auto.
  - unfold mc_sub. destruct (sub_spec c b e) as [(_ & i & -> & W)|(_ & ->)]; cbn [bind]; [|discriminate].
    destruct (op_sub _ _ _); cbn [bind]; try discriminate. intros [= <-]. apply W.
  - intros [= <-]. apply reverse_points.
Qed.

Lemma edit_total c e : handles c = None -> well_kinded c e ->
  (indices_ok c e /\ exists c', do_edit c e = Ok c') \/ (~ indices_ok c e /\ do_edit c e = Panic).
Proof.
  intros Hn Hk. destruct e as [n|n p|d|b e|]; cbn [do_edit indices_ok well_kinded] in *.
  - unfold mc_delete. destruct (delete_spec c n) as [(? & i & -> & W)|(? & ->)]; cbn [bind]; [left|right; split; [lia|reflexivity]].
    split; [assumption|]. rewrite op_none_remove by exact Hn. cbn [bind]. eauto.
  - destruct (insert_spec c n p Hk) as [(? & i & -> & W)|(? & ->)]; cbn [bind]; [left|right; split; [lia|reflexivity]].
    split; [assumption|]. rewrite op_none_insert by exact Hn. cbn [bind]. eauto.
  - left. eauto.
  - unfold mc_sub. destruct (sub_spec c b e) as [(? & i & -> & W)|(? & ->)]; cbn [bind]; [left|right; split; [lia|reflexivity]].
    split; [assumption|]. rewrite op_none_sub by exact Hn. cbn [bind]. eauto.
  - left. eauto.
Qed.

Lemma run_kf l : forall c c', run c l = Ok c' -> kind_flag (mc_inner c') = kind_flag (mc_inner c) /\ settings (mc_op c') = settings (mc_op c).
Proof.
  induction l as [|e l IH]; cbn [run]; intros c c'; [intros [= <-]; auto|]. destruct (do_edit c e) as [c1|x|] eqn:E; cbn [bind]; try discriminate.
  intros H. apply IH in H as [-> ->]. split; [now apply kf_edit in E|now apply settings_edit in E].
Qed.

(** * Openness *)
Lemma opened_first c : 2 <= size c -> open_flag c = None -> (opened c <-> exists m l, points c = m :: l /\ ~ not_a_move m) /\ (closed c <-> exists m l, points c = m :: l /\ not_a_move m).
Proof.
  intros Hs Hf.
  assert (exists m l, points c = m :: l /\ (inner_is_open (mc_inner c) = Ok true /\ ~ not_a_move m \/ inner_is_open (mc_inner c) = Ok false /\ not_a_move m)) as (m & l & E & H).
  { revert Hs Hf. unfold size, points, open_flag. destruct (mc_inner c) as [[|p [|p' l]]|[|q [|q' l]]|l b]; cbn [map length]; try lia; try discriminate; intros _ _; eexists _, _; (split; [reflexivity|]).
    - cbn. unfold is_open. cbn. destruct (pptype p); cbn; auto; right; split; congruence.
    - cbn. destruct (q_ptype q); cbn; auto; right; split; congruence. }
  rewrite E. unfold opened, closed. destruct H as [[-> H]|[-> H]]; split; split; try discriminate; try (intros _; exists m, l; auto; fail); try reflexivity;
    intros (? & ? & [= <- _] & H'); contradiction.
Qed.
Lemma opened_flag c b : open_flag c = Some b -> inner_is_open (mc_inner c) = Ok b.
Proof. unfold open_flag. destruct (mc_inner c); cbn; congruence. Qed.

(** * One point *)
Lemma change_kind (ch : change) (m : mpoint PD) :
  match m, change_point ch m with MCubic _, MCubic _ | MQuad _, MQuad _ | MHyper _, MHyper _ => True | _, _ => False end.
Proof.
  destruct ch as [s|b|w h|w|w x y|x y|x y]; destruct m as [p|q|h0]; cbn; try exact I; try (destruct w; exact I);
    repeat match goal with |- context [match ?x with _ => _ end] => destruct x; cbn; try exact I end.
Qed.
Lemma update_points c n ch :
  points (mc_update c n (change_point ch)) =
  match nth_error (points c) n with
  | Some m => firstn n (points c) ++ change_point ch m :: skipn (S n) (points c)
  | None => points c
  end.
Proof.
  unfold mc_update, points. cbn [mc_inner].
  destruct (mc_inner c) as [l|l|l b]; cbn [inner_update]; rewrite nth_error_map; destruct (nth_error l n) as [p|] eqn:E; cbn [option_map]; try reflexivity.
  - pose proof (change_kind ch (MCubic p)) as K. cbv beta iota in K. destruct (change_point ch (MCubic p)); try contradiction. rewrite map_app, firstn_map, skipn_map. reflexivity.
  - pose proof (change_kind ch (MQuad p)) as K. cbv beta iota in K. destruct (change_point ch (MQuad p)); try contradiction. rewrite map_app, firstn_map, skipn_map. reflexivity.
  - pose proof (change_kind ch (MHyper p)) as K. cbv beta iota in K. destruct (change_point ch (MHyper p)); try contradiction. rewrite map_app, firstn_map, skipn_map. reflexivity.
Qed.
Lemma nth_upd {A} (l : list A) n x k : n < length l ->
  nth_error (firstn n l ++ x :: skipn (S n) l) k = if k =? n then Some x else nth_error l k.
Proof.
  intros H. assert (length (firstn n l) = n) as L by (rewrite firstn_length; lia).
  destruct (Nat.eqb_spec k n) as [->|N].
  - rewrite nth_error_app2 by lia. rewrite L, Nat.sub_diag. reflexivity.
  - destruct (Nat.lt_ge_cases k n).
    + rewrite nth_error_app1 by lia. rewrite <- (firstn_skipn n l) at 2. now rewrite nth_error_app1 by lia.
    + rewrite nth_error_app2 by lia. rewrite L. destruct (k - n) as [|j] eqn:Ej; [lia|]. cbn [nth_error].
      rewrite <- (firstn_skipn (S n) l) at 2. rewrite nth_error_app2 by (rewrite firstn_length; lia). f_equal. rewrite firstn_length. lia.
Qed.
End Edits.
