(** Lemmas about MFEK contours, layers and glyphs. *)
Require Import Coq.Strings.String Coq.Lists.List Coq.Arith.Arith Coq.NArith.NArith Coq.ZArith.ZArith Coq.Bool.Bool Coq.micromega.Lia.
Require Import Verif.Model.Base Verif.Model.Text Verif.Model.Float Verif.Model.Num Verif.Model.Point
  Verif.Model.Contour Verif.Model.Names Verif.Model.Color Verif.Model.Parts Verif.Model.Component
  Verif.Model.Mpoint Verif.Model.Mfek Verif.Spec.MfekSpec Verif.Facts.TextFacts Verif.Facts.NamesFacts.
Import ListNotations.
Local Open Scope nat_scope.

(** * Vectors *)
Lemma vec_remove_spec {A} (l : list A) n :
  (n < length l /\ exists l', vec_remove l n = Ok l' /\ without l l' n) \/ (length l <= n /\ vec_remove l n = Panic).
Proof.
  unfold vec_remove. destruct (Nat.ltb_spec n (length l)) as [H|H]; [left|right; auto]. split; [assumption|].
  eexists. split; [reflexivity|]. destruct (nth_error l n) as [x|] eqn:E; [|apply nth_error_None in E; lia].
  exists (firstn n l), x, (skipn (S n) l). apply nth_error_split in E as (l1 & l2 & -> & <-).
  rewrite firstn_app, Nat.sub_diag, firstn_all. cbn [firstn]. rewrite app_nil_r.
  rewrite skipn_app, skipn_all2, Nat.sub_succ_l, Nat.sub_diag by lia. cbn [skipn app]. auto.
Qed.
Lemma vec_insert_spec {A} (l : list A) n x :
  (n <= length l /\ exists l', vec_insert l n x = Ok l' /\ with_at l l' n x) \/ (length l < n /\ vec_insert l n x = Panic).
Proof.
  unfold vec_insert. destruct (Nat.leb_spec n (length l)) as [H|H]; [left|right; auto]. split; [assumption|].
  eexists. split; [reflexivity|]. exists (firstn n l), (skipn n l). rewrite firstn_skipn, firstn_length. repeat split. lia.
Qed.
Lemma slice_spec {A} (l : list A) b e :
  (b <= e <= length l /\ exists l', slice l b e = Ok l' /\ range l l' b e) \/ (~ (b <= e <= length l) /\ slice l b e = Panic).
Proof.
  unfold slice. destruct (Nat.leb_spec b e) as [H|H]; destruct (Nat.leb_spec e (length l)) as [H'|H']; cbn [andb];
    try (right; split; [lia|reflexivity]). left. split; [lia|].
  eexists. split; [reflexivity|]. exists (firstn b l), (skipn (e - b) (skipn b l)).
  rewrite (firstn_skipn (e - b) (skipn b l)), firstn_skipn, !firstn_length, skipn_length. repeat split; lia.
Qed.

Lemma without_length {A} (l l' : list A) n : without l l' n -> length l = S (length l').
Proof. intros (a & x & b & -> & _ & ->). rewrite !app_length. cbn. lia. Qed.
Lemma with_at_length {A} (l l' : list A) n x : with_at l l' n x -> length l' = S (length l).
Proof. intros (a & b & -> & _ & ->). rewrite !app_length. cbn. lia. Qed.
Lemma range_length {A} (l l' : list A) b e : range l l' b e -> length l' = e - b.
Proof. intros (a & d & -> & <- & <-). lia. Qed.
Lemma without_map {A B} (f : A -> B) l l' n : without l l' n -> without (map f l) (map f l') n.
Proof. intros (a & x & b & -> & <- & ->). exists (map f a), (f x), (map f b). rewrite !map_app, map_length. auto. Qed.
Lemma with_at_map {A B} (f : A -> B) l l' n x : with_at l l' n x -> with_at (map f l) (map f l') n (f x).
Proof. intros (a & b & -> & <- & ->). exists (map f a), (map f b). rewrite !map_app, map_length. auto. Qed.
Lemma range_map {A B} (f : A -> B) l l' b e : range l l' b e -> range (map f l) (map f l') b e.
Proof. intros (a & d & -> & <- & <-). exists (map f a), (map f d). rewrite !map_app, !map_length. auto. Qed.
Lemma combine_app {A B} (a a' : list A) (b b' : list B) : length a = length b -> combine (a ++ a') (b ++ b') = combine a b ++ combine a' b'.
Proof. revert b; induction a as [|x a IH]; intros [|y b] H; try discriminate; [reflexivity|]. cbn in *. f_equal. apply IH. lia. Qed.
Lemma fst_combine {A B} (a : list A) : forall b : list B, length a = length b -> map fst (combine a b) = a.
Proof. induction a as [|x a IH]; intros [|y b] H; cbn in *; try discriminate; [reflexivity|]. f_equal. apply IH. congruence. Qed.
Lemma snd_combine {A B} (a : list A) : forall b : list B, length a = length b -> map snd (combine a b) = b.
Proof. induction a as [|x a IH]; intros [|y b] H; cbn in *; try discriminate; [reflexivity|]. f_equal. apply IH. congruence. Qed.
Lemma rev_combine {A B} (a : list A) : forall b : list B, length a = length b -> combine (rev a) (rev b) = rev (combine a b).
Proof.
  induction a as [|x a IH]; intros [|y b] H; cbn in *; try discriminate; [reflexivity|]. rewrite combine_app by (rewrite !rev_length; congruence).
  rewrite IH by congruence. reflexivity.
Qed.
Lemma without_combine {A B} (l l' : list A) (k k' : list B) n : length l = length k -> without l l' n -> without k k' n ->
  without (combine l k) (combine l' k') n.
Proof.
  intros H (a & x & b & -> & Ha & ->) (c & y & d & -> & Hc & ->). rewrite !app_length in H. cbn in H.
  exists (combine a c), (x, y), (combine b d). rewrite !combine_app by congruence. cbn [combine]. repeat split.
  rewrite combine_length. lia.
Qed.
Lemma with_at_combine {A B} (l l' : list A) (k k' : list B) n x y : with_at l l' n x -> with_at k k' n y ->
  with_at (combine l k) (combine l' k') n (x, y).
Proof.
  intros (a & b & -> & Ha & ->) (c & d & -> & Hc & ->).
  exists (combine a c), (combine b d). rewrite !combine_app by congruence. cbn [combine]. repeat split.
  rewrite combine_length. lia.
Qed.

(** * Points *)
Section Points.
Context {PD : Type}.
Implicit Types c d : mcontour PD.

Lemma len_size c : inner_len (mc_inner c) = size c.
Proof. unfold size, points, inner_len. destruct (mc_inner c); now rewrite map_length. Qed.
Lemma get_point_spec c n : inner_get_point (mc_inner c) n = nth_error (points c) n.
Proof. unfold points, inner_get_point. destruct (mc_inner c); symmetry; apply nth_error_map. Qed.

Lemma repeat_last_length (h : list vws_handle) n : length (repeat_last h n) = length h + n.
Proof. revert h; induction n as [|n IH]; intros h; cbn; [lia|]. rewrite IH, app_length. cbn. lia. Qed.
Lemma repeat_last_eq (h : list vws_handle) n : repeat_last h n = h ++ repeat (last h default_vws_handle) n.
Proof.
  revert h; induction n as [|n IH]; intros h; cbn; [now rewrite app_nil_r|].
  rewrite IH, <- app_assoc, last_last. reflexivity.
Qed.

Lemma delete_spec c n :
  (n < size c /\ exists i, inner_delete (mc_inner c) n = Ok i /\ (forall o, without (points c) (points (MC i o)) n))
  \/ (size c <= n /\ inner_delete (mc_inner c) n = Panic).
Proof.
  unfold size, points, inner_delete. destruct (mc_inner c) as [l|l|l o]; rewrite map_length;
  (destruct (vec_remove_spec l n) as [(H & l' & -> & W)|(H & ->)]; [left|right; auto]);
  (split; [assumption|]; eexists; split; [reflexivity|]; intros; apply without_map, W).
Qed.
Lemma insert_spec c n p : fits_in c p ->
  (n <= size c /\ exists i, insert_point (mc_inner c) n p = Ok i /\ (forall o, with_at (points c) (points (MC i o)) n p))
  \/ (size c < n /\ insert_point (mc_inner c) n p = Panic).
Proof.
  unfold size, points, insert_point, fits_in. destruct (mc_inner c) as [l|l|l o]; rewrite map_length; destruct p as [p|p|p]; try contradiction; intros _;
  (destruct (vec_insert_spec l n p) as [(H & l' & -> & W)|(H & ->)]; [left|right; auto]);
  (split; [assumption|]; eexists; split; [reflexivity|]; intros o'; cbn [mc_inner]; now apply (with_at_map _ _ _ _ p)).
Qed.
Lemma sub_spec c b e :
  (b <= e <= size c /\ exists i, inner_sub (mc_inner c) b e = Ok i /\ (forall o, range (points c) (points (MC i o)) b e))
  \/ (~ (b <= e <= size c) /\ inner_sub (mc_inner c) b e = Panic).
Proof.
  unfold size, points, inner_sub. destruct (mc_inner c) as [l|l|l o]; rewrite map_length;
  (destruct (slice_spec l b e) as [(H & l' & -> & W)|(H & ->)]; [left|right; auto]);
  (split; [assumption|]; eexists; split; [reflexivity|]; intros; apply range_map, W).
Qed.
Lemma append_spec c d : 
  (same_kind c d /\ exists i, inner_append (mc_inner c) (mc_inner d) = Some i /\ (forall o, points (MC i o) = points c ++ points d))
  \/ (~ same_kind c d /\ inner_append (mc_inner c) (mc_inner d) = None).
Proof.
  unfold same_kind, points, inner_append. destruct (mc_inner c), (mc_inner d); try (right; now auto);
    (left; split; [exact I|]; eexists; split; [reflexivity|]; intros; cbn [mc_inner]; apply map_app).
Qed.
Lemma reverse_points c : points (mc_reverse c) = rev (points c).
Proof. unfold mc_reverse, points. cbn [mc_inner]. destruct (mc_inner c); cbn [inner_reverse]; apply map_rev. Qed.

Lemma op_remove_spec (o : option (operations (mcontour PD))) n h : match o with Some (OpVws v) => Some (v_handles v) | _ => None end = Some h ->
  (n < length h /\ exists o' h', op_remove o n = Ok o' /\ match o' with Some (OpVws v) => Some (v_handles v) | _ => None end = Some h' /\ without h h' n)
  \/ (length h <= n /\ op_remove o n = Panic).
Proof.
  destruct o as [[v| |]|]; try discriminate. intros [= <-]. cbn [op_remove]. unfold vws_remove.
  destruct (vec_remove_spec (v_handles v) n) as [(H & l' & -> & W)|(H & ->)]; [left|right; auto].
  split; [assumption|]. cbn [bind]. eexists _, l'. split; [reflexivity|]. auto.
Qed.
Lemma op_insert_spec (o : option (operations (mcontour PD))) n h : match o with Some (OpVws v) => Some (v_handles v) | _ => None end = Some h ->
  (exists x, nth_error h n = Some x /\ exists o' h', op_insert o n = Ok o' /\ match o' with Some (OpVws v) => Some (v_handles v) | _ => None end = Some h' /\ with_at h h' n x)
  \/ (length h <= n /\ op_insert o n = Panic).
Proof.
  destruct o as [[v| |]|]; try discriminate. intros [= <-]. cbn [op_insert]. unfold vws_insert, idx.
  destruct (nth_error (v_handles v) n) as [x|] eqn:E; cbn [bind]; [left|right; split; [now apply nth_error_None|reflexivity]].
  exists x. split; [reflexivity|]. assert (n < length (v_handles v)) by (apply nth_error_Some; congruence).
  replace (mkVH _ _ _ _) with x by now destruct x.
  destruct (vec_insert_spec (v_handles v) n x) as [(H' & l' & -> & W)|(H' & _)]; [|lia].
  cbn [bind]. eexists _, l'. split; [reflexivity|]. auto.
Qed.
Lemma op_sub_spec (o : option (operations (mcontour PD))) b e h : match o with Some (OpVws v) => Some (v_handles v) | _ => None end = Some h -> b <= e ->
  (S e <= length h /\ exists o' h', op_sub o b e = Ok o' /\ match o' with Some (OpVws v) => Some (v_handles v) | _ => None end = Some h' /\ range h h' b (S e))
  \/ (length h <= e /\ op_sub o b e = Panic).
Proof.
  destruct o as [[v| |]|]; try discriminate. intros [= <-] Hb. cbn [op_sub]. unfold vws_sub, split_at.
  destruct (Nat.leb_spec b (length (v_handles v))) as [H|H]; cbn [bind snd fst]; [|right; split; [lia|reflexivity]].
  destruct (Nat.ltb_spec (e + 1) b); [lia|].
  destruct (Nat.leb_spec (e + 1 - b) (length (skipn b (v_handles v)))) as [H1|H1]; rewrite skipn_length in H1; cbn [bind fst]; [left|right; split; [lia|reflexivity]].
  split; [lia|]. eexists _, _. split; [reflexivity|]. split; [reflexivity|].
  exists (firstn b (v_handles v)), (skipn (e + 1 - b) (skipn b (v_handles v))). cbn [v_handles v_with_handles].
  rewrite (firstn_skipn (e + 1 - b) (skipn b (v_handles v))), firstn_skipn, !firstn_length, skipn_length. repeat split; lia.
Qed.
Lemma op_none_remove (o : option (operations (mcontour PD))) n : match o with Some (OpVws v) => Some (v_handles v) | _ => None end = None -> op_remove o n = Ok o.
Proof. now destruct o as [[v| |]|]. Qed.
Lemma op_none_insert (o : option (operations (mcontour PD))) n : match o with Some (OpVws v) => Some (v_handles v) | _ => None end = None -> op_insert o n = Ok o.
Proof. now destruct o as [[v| |]|]. Qed.
Lemma op_none_sub (o : option (operations (mcontour PD))) b e : match o with Some (OpVws v) => Some (v_handles v) | _ => None end = None -> op_sub o b e = Ok o.
Proof. now destruct o as [[v| |]|]. Qed.
Lemma op_none_append (o : option (operations (mcontour PD))) d : match o with Some (OpVws v) => Some (v_handles v) | _ => None end = None -> op_append o d = o.
Proof. now destruct o as [[v| |]|]. Qed.
Definition extra d (h : list vws_handle) : list vws_handle :=
  match handles d with Some h' => h' | None => repeat (last h default_vws_handle) (size d) end.
Lemma op_append_handles c d h i : handles c = Some h -> handles (MC i (op_append (mc_op c) d)) = Some (h ++ extra d h).
Proof.
  unfold extra, handles. destruct (mc_op c) as [[v| |]|]; try discriminate. intros [= <-]. cbn [op_append mc_op]. f_equal.
  unfold vws_append. destruct (mc_op d) as [[w| |]|]; cbn [v_handles v_with_handles]; try reflexivity; now rewrite repeat_last_eq, len_size.
Qed.

(** * Edits one by one *)
Lemma delete_step c n : in_step c -> n < size c ->
  exists c', mc_delete c n = Ok c' /\ in_step c' /\ without (points c) (points c') n /\
    (forall h, handles c = Some h -> exists h', handles c' = Some h' /\ without h h' n) /\ (handles c = None -> mc_op c' = mc_op c).
Proof.
  intros Hs Hn. unfold mc_delete. destruct (delete_spec c n) as [(_ & i & E & W)|(H & _)]; [|lia]. rewrite E. cbn [bind].
  destruct (handles c) as [h|] eqn:Eh.
  - pose proof (Hs h Eh) as Hl. destruct (op_remove_spec (mc_op c) n h Eh) as [(_ & o' & h' & -> & Eh' & W')|(H & _)]; [|lia].
    cbn [bind]. eexists. split; [reflexivity|]. split; [|split; [apply W|split; [|discriminate]]].
    + intros k Hk. unfold handles in Hk. cbn [mc_op] in Hk. rewrite Eh' in Hk. injection Hk as <-.
      apply without_length in W'. specialize (W o'). apply without_length in W. unfold size in *. lia.
    + intros k [= <-]. exists h'. auto.
  - rewrite (op_none_remove _ _ Eh). cbn [bind]. eexists. split; [reflexivity|]. split; [|split; [apply W|split; [discriminate|reflexivity]]].
    intros k Hk. unfold handles in *. cbn [mc_op] in Hk. rewrite Eh in Hk. discriminate.
Qed.

Lemma insert_step c n p : in_step c -> fits_in c p -> n <= size c -> (handles c <> None -> n < size c) ->
  exists c', do_edit c (EInsert n p) = Ok c' /\ in_step c' /\ with_at (points c) (points c') n p /\
    (forall h, handles c = Some h -> exists x h', nth_error h n = Some x /\ handles c' = Some h' /\ with_at h h' n x) /\
    (handles c = None -> mc_op c' = mc_op c).
Proof.
  intros Hs Hf Hn Hn'. cbn [do_edit]. destruct (insert_spec c n p Hf) as [(_ & i & E & W)|(H & _)]; [|lia]. rewrite E. cbn [bind].
  destruct (handles c) as [h|] eqn:Eh.
  - pose proof (Hs h Eh) as Hl. specialize (Hn' ltac:(discriminate)).
    destruct (op_insert_spec (mc_op c) n h Eh) as [(x & Ex & o' & h' & -> & Eh' & W')|(H & _)]; [|lia].
    cbn [bind]. eexists. split; [reflexivity|]. split; [|split; [apply W|split; [|discriminate]]].
    + intros k Hk. unfold handles in Hk. cbn [mc_op] in Hk. rewrite Eh' in Hk. injection Hk as <-.
      apply with_at_length in W'. specialize (W o'). apply with_at_length in W. unfold size in *. lia.
    + intros k [= <-]. exists x, h'. auto.
  - rewrite (op_none_insert _ _ Eh). cbn [bind]. eexists. split; [reflexivity|]. split; [|split; [apply W|split; [discriminate|reflexivity]]].
    intros k Hk. unfold handles in *. cbn [mc_op] in Hk. rewrite Eh in Hk. discriminate.
Qed.

Lemma extra_length d h : in_step d -> length (extra d h) = size d.
Proof. intros Hs. unfold extra. destruct (handles d) as [k|] eqn:E; [now apply Hs|apply repeat_length]. Qed.

Lemma append_step c d : in_step c -> in_step d ->
  exists c', do_edit c (EAppend d) = Ok c' /\ in_step c' /\
    (same_kind c d -> mc_append c d = Some c' /\ points c' = points c ++ points d /\
       (forall h, handles c = Some h -> handles c' = Some (h ++ extra d h)) /\ (handles c = None -> mc_op c' = mc_op c)) /\
    (~ same_kind c d -> mc_append c d = None /\ c' = c).
Proof.
  intros Hc Hd. cbn [do_edit]. unfold mc_append. destruct (append_spec c d) as [(K & i & -> & W)|(K & ->)].
  - eexists. split; [reflexivity|]. split; [|split; [|tauto]].
    + intros h Hh. destruct (handles c) as [k|] eqn:Ek.
      * rewrite (op_append_handles c d k i Ek) in Hh. injection Hh as <-. unfold size. rewrite W, !app_length, extra_length by assumption.
        rewrite (Hc k Ek). reflexivity.
      * unfold handles in *. rewrite (op_none_append _ _ Ek) in Hh. cbn in Hh. congruence.
    + intros _. split; [reflexivity|]. split; [apply W|]. split; [intros h Hh; now apply op_append_handles|].
      intros Hn. apply (op_none_append (mc_op c) d) in Hn. exact Hn.
  - eexists. split; [reflexivity|]. split; [assumption|]. split; [tauto|auto].
Qed.

Lemma reverse_step c : in_step c -> in_step (mc_reverse c).
Proof. intros H h Hh. unfold size. rewrite reverse_points, rev_length. apply H. exact Hh. Qed.

Lemma sub_step_plain c b e : handles c = None -> b <= e -> e <= size c ->
  exists c', mc_sub c b e = Ok c' /\ in_step c' /\ range (points c) (points c') b e /\ mc_op c' = mc_op c.
Proof.
  intros Hn Hb He. unfold mc_sub. destruct (sub_spec c b e) as [(_ & i & -> & W)|(H & _)]; [|lia]. cbn [bind].
  rewrite (op_none_sub _ _ _ Hn). cbn [bind]. eexists. split; [reflexivity|]. split; [|split; [apply W|reflexivity]].
  intros h Hh. unfold handles in *. cbn [mc_op] in Hh. congruence.
Qed.
Lemma sub_step_vws c b e h : in_step c -> handles c = Some h -> b <= e -> e <= size c ->
  (e = size c /\ mc_sub c b e = Panic) \/
  (e < size c /\ exists c' h', mc_sub c b e = Ok c' /\ range (points c) (points c') b e /\ handles c' = Some h' /\ range h h' b (S e)).
Proof.
  intros Hs Hh Hb He. unfold mc_sub. destruct (sub_spec c b e) as [(_ & i & -> & W)|(H & _)]; [|lia]. cbn [bind].
  pose proof (Hs h Hh) as Hl. destruct (op_sub_spec (mc_op c) b e h Hh Hb) as [(H & o' & h' & -> & E & R)|(H & ->)]; cbn [bind].
  - right. split; [lia|]. eexists _, h'. split; [reflexivity|]. auto.
  - left. split; [lia|reflexivity].
Qed.

Lemma step_ok c e : in_step c -> in_range' c e -> exists c', do_edit c e = Ok c' /\ in_step c'.
Proof.
  intros Hs [Hr Hx]. destruct e as [n|n p|d|b e|]; cbn [in_range] in *.
  - destruct (delete_step c n Hs Hr) as (c' & E & S & _). exists c'. auto.
  - destruct (insert_step c n p Hs (proj2 Hr) (proj1 Hr) Hx) as (c' & E & S & _). exists c'. auto.
  - destruct (append_step c d Hs Hr) as (c' & E & S & _). exists c'. auto.
  - destruct (sub_step_plain c b e Hx (proj1 Hr) (proj2 Hr)) as (c' & E & S & _). exists c'. auto.
  - exists (mc_reverse c). split; [reflexivity|now apply reverse_step].
Qed.
Lemma run_ok l : forall c, in_step c -> allowed in_range' c l -> exists c', run c l = Ok c' /\ in_step c'.
Proof.
  induction l as [|e l IH]; intros c Hs Ha; [exists c; auto|]. destruct Ha as [Hr Ha].
  destruct (step_ok c e Hs Hr) as (c1 & E & S1). destruct (IH c1 S1 (Ha c1 E)) as (c2 & E2 & S2).
  exists c2. cbn [run]. rewrite E. auto.
Qed.

Lemma strokes_of c h : handles c = Some h -> strokes c = Some (combine (points c) h).
Proof. intros H. unfold strokes. now rewrite H. Qed.

(** * Iteration *)
Lemma collect_from c : forall k n, length (points c) - n <= k -> iter_collect (S k) (mc_inner c) n = Some (skipn n (points c)).
Proof.
  induction k as [|k IH]; intros n H; cbn [iter_collect]; unfold iter_next; rewrite get_point_spec; destruct (nth_error (points c) n) as [p|] eqn:E.
  - assert (n < length (points c)) by (apply nth_error_Some; congruence). lia.
  - apply nth_error_None in E. now rewrite skipn_all2.
  - assert (n < length (points c)) by (apply nth_error_Some; congruence).
    change (option_map (cons p) (iter_collect (S k) (mc_inner c) (n + 1)) = Some (skipn n (points c))).
    rewrite IH by lia. cbn [option_map]. f_equal. rewrite Nat.add_1_r.
    apply nth_error_split in E as (a & b & -> & <-). clear. induction a as [|x a IH]; [reflexivity|exact IH].
  - apply nth_error_None in E. now rewrite skipn_all2.
Qed.

(** * Outlines *)
Lemma downgrade_iff (o : moutline PD) pts : downgrade o = Ok pts <-> Forall2 (fun c l => mc_inner c = Cubic l) o pts.
Proof.
  unfold downgrade. revert pts; induction o as [|c o IH]; intros pts; cbn [mapM].
  - split; [intros [= <-]; constructor|inversion 1; reflexivity].
  - destruct (mc_inner c) as [l|l|l op] eqn:Ec; cbn [cubic_points bind];
      try (split; [discriminate|inversion 1; subst; congruence]).
    destruct (mapM _ o) as [pts'| |] eqn:Em; cbn [bind].
    + split; [intros [= <-]; constructor; [assumption|now apply IH]|]. intros HF. inversion HF as [|? y0 ? ys E0 E1]; subst.
      rewrite Ec in E0. injection E0 as <-. apply IH in E1. injection E1 as <-. reflexivity.
    + split; [discriminate|]. inversion 1; subst. match goal with H : Forall2 _ o _ |- _ => apply IH in H; discriminate end.
    + split; [discriminate|]. inversion 1; subst. match goal with H : Forall2 _ o _ |- _ => apply IH in H; discriminate end.
Qed.
Lemma downgrade_total (o : moutline PD) : (exists pts, downgrade o = Ok pts) \/ (downgrade o = Panic /\ exists c, In c o /\ forall l, mc_inner c <> Cubic l).
Proof.
  unfold downgrade. induction o as [|c o IH]; cbn [mapM]; [left; now eexists|].
  destruct (mc_inner c) as [l|l|l op] eqn:Ec; cbn [cubic_points bind];
    try (right; split; [reflexivity|]; exists c; split; [now left|congruence]).
  destruct IH as [[pts ->]|(-> & d & Hd & Hn)]; [left; now eexists|]. right. split; [reflexivity|]. exists d. split; [now right|assumption].
Qed.
Lemma upgrade_downgrade (o : outline PD) : downgrade (upgrade o) = Ok o.
Proof. apply downgrade_iff. unfold upgrade. induction o; constructor; auto. Qed.
Lemma clean_iff (o : moutline PD) : cleanly_downgradable o = true <-> exists pts, o = upgrade pts.
Proof.
  unfold cleanly_downgradable. rewrite andb_true_iff, !forallb_forall. split.
  - intros [H1 H2]. induction o as [|c o IH]; [now exists []|].
    destruct IH as [pts ->]; [intros x Hx; apply H1; now right|intros x Hx; apply H2; now right|].
    specialize (H1 c (or_introl eq_refl)). specialize (H2 c (or_introl eq_refl)). destruct c as [[l| |] [x|]]; try discriminate.
    now exists (l :: pts).
  - intros [pts ->]. unfold upgrade. split; intros x Hx; apply in_map_iff in Hx as (l & <- & _); reflexivity.
Qed.
Lemma upgrade_ops_ok (o : moutline PD) l : length l = length o ->
  exists o', upgrade_ops o l = (Ok tt, o') /\ map mc_inner o' = map mc_inner o /\ map mc_op o' = l.
Proof.
  revert l; induction o as [|c o IH]; intros [|x l] H; try discriminate.
  - now exists [].
  - destruct (IH l) as (o' & E & E1 & E2); [cbn in H; lia|]. exists (set_operation c x :: o'). cbn. rewrite E, E1, E2. auto.
Qed.
Lemma upgrade_ops_short (o : moutline PD) l : length l < length o ->
  exists o', upgrade_ops o l = (Err EMoreContoursThanOps, o') /\ map mc_inner o' = map mc_inner o /\
    map mc_op o' = l ++ skipn (length l) (map mc_op o).
Proof.
  revert l; induction o as [|c o IH]; intros [|x l] H; try (cbn in H; lia).
  - exists (c :: o). auto.
  - destruct (IH l) as (o' & E & E1 & E2); [cbn in H; lia|]. exists (set_operation c x :: o'). cbn. rewrite E, E1, E2. auto.
Qed.
Lemma upgrade_ops_long (o : moutline PD) l : length o < length l ->
  exists o', upgrade_ops o l = (Err EMoreOpsThanContours, o') /\ map mc_inner o' = map mc_inner o /\
    map mc_op o' = firstn (length o) l.
Proof.
  revert l; induction o as [|c o IH]; intros [|x l] H; try (cbn in H; lia).
  - exists []. auto.
  - destruct (IH l) as (o' & E & E1 & E2); [cbn in H; lia|]. exists (set_operation c x :: o'). cbn. rewrite E, E1, E2. auto.
Qed.
Lemma moutline_ext (o o' : moutline PD) : map mc_inner o = map mc_inner o' -> map mc_op o = map mc_op o' -> o = o'.
Proof.
  revert o'; induction o as [|[i x] o IH]; intros [|[i' x'] o'] H H'; try discriminate; [reflexivity|].
  cbn in H, H'. injection H as <- H. injection H' as <- H'. f_equal. now apply IH.
Qed.

(** * Glyphs *)
Lemma layers_round (ls ls' : list (layer PD)) :
  map (fun l => l_with_outline l []) ls = map (fun l => l_with_outline l []) ls' ->
  map (fun l => map mc_inner (l_outline l)) ls = map (fun l => map mc_inner (l_outline l)) ls' ->
  layers_upgrade_ops ls' (map (fun l => downgrade_ops (l_outline l)) ls) = (Ok tt, ls).
Proof.
  revert ls'; induction ls as [|l ls IH]; intros [|l' ls'] H H'; try discriminate; [reflexivity|].
  cbn [map] in H, H'. injection H as Hn Hv Hc Ho Hi Hls. injection H' as Hin H'. cbn [map layers_upgrade_ops].
  destruct (upgrade_ops_ok (l_outline l') (downgrade_ops (l_outline l))) as (o' & E & E1 & E2).
  { unfold downgrade_ops. rewrite map_length. apply (f_equal (@length _)) in Hin. now rewrite !map_length in Hin. }
  rewrite E. rewrite (IH ls' Hls H'). f_equal. f_equal. unfold l_with_outline.
  replace o' with (l_outline l); [destruct l; cbn in *; congruence|]. apply moutline_ext; [congruence|]. now rewrite E2.
Qed.
End Points.

(** * Names of options *)
Lemma join_text j : join_parse (join_show j) = Ok j. Proof. now destruct j. Qed.
Lemma cap_text c : cap_parse (cap_show c) = Ok c. Proof. now destruct c. Qed.
Lemma interpolation_text i : interpolation_parse (interpolation_show i) = Ok i. Proof. now destruct i. Qed.
Lemma join_parse_iff s j : join_parse s = Ok j <-> s = join_show j.
Proof.
  split; [|intros ->; apply join_text]. unfold join_parse.
  repeat match goal with |- context [str_eqb s ?t] => destruct (str_eqb_spec s t) as [->|]; [let E := fresh in intros E; injection E as <-; reflexivity|] end. discriminate.
Qed.
Lemma interpolation_parse_iff s j : interpolation_parse s = Ok j <-> s = interpolation_show j.
Proof.
  split; [|intros ->; apply interpolation_text]. unfold interpolation_parse.
  repeat match goal with |- context [str_eqb s ?t] => destruct (str_eqb_spec s t) as [->|]; [let E := fresh in intros E; injection E as <-; reflexivity|] end. discriminate.
Qed.
Lemma ends_with_iff suf s : ends_with suf s = true <-> exists t, s = t ++ suf.
Proof.
  unfold ends_with. split.
  - intros H. apply str_eqb_eq in H. exists (rev (skipn (length suf) (rev s))).
    rewrite <- (rev_involutive s) at 1. rewrite <- (rev_involutive suf) at 2. rewrite H, <- rev_app_distr, firstn_skipn. reflexivity.
  - intros [t ->]. rewrite rev_app_distr, firstn_app, rev_length, Nat.sub_diag. cbn [firstn]. rewrite app_nil_r.
    rewrite <- (rev_length suf), firstn_all. apply str_eqb_refl.
Qed.
Lemma cap_parse_iff s c : cap_parse s = Ok c <-> s = cap_show c \/ (c = CapCustom /\ exists t, s = t ++ lit ".glif").
Proof.
  split.
  - unfold cap_parse.
    repeat match goal with |- context [str_eqb s ?t] => destruct (str_eqb_spec s t) as [->|]; [let E := fresh in intros E; injection E as <-; now left|] end.
    destruct (ends_with _ s) eqn:E; [|discriminate]. intros [= <-]. right. split; [reflexivity|]. now apply ends_with_iff.
  - intros [->|(-> & H)]; [apply cap_text|]. apply ends_with_iff in H. unfold cap_parse. rewrite H.
    repeat match goal with |- context [str_eqb s ?t] => destruct (str_eqb_spec s t) as [->|]; [discriminate H|] end. 
    destruct (str_eqb s (lit "custom")); reflexivity.
Qed.

(** * Layer lists *)
Definition entry_of (v : pvalue) : Prop := exists k d, v = PArray [PString k; PString d].
Lemma pcontains_iff theirs e : entry_of e -> pcontains theirs e = true <-> In e theirs.
Proof.
  intros (k & d & ->). cbn [pcontains]. rewrite existsb_exists. split.
  - intros (v & Hv & E). unfold is_entry in E. destruct v as [[|[| | | | |k'|] [|[| | | | |d'|] [|]]]| | | | | |]; try discriminate.
    apply andb_true_iff in E as [E1 E2]. apply str_eqb_eq in E1, E2. now subst.
  - intros H. eexists. split; [exact H|]. cbn. now rewrite !str_eqb_refl.
Qed.
Lemma firsts_ext {A} (P Q : A -> Prop) l l' : (forall x, P x <-> Q x) -> firsts P l l' -> firsts Q l l'.
Proof.
  intros H F. revert Q H. induction F as [W|W x l l' Hw F IH|W x l l' Hw F IH]; intros Q H; [constructor|constructor|apply firsts_skip]; try (now apply H); try (intros Hq; apply Hw; now apply H).
  - apply IH. intros y. now rewrite H.
  - now apply IH.
Qed.
Lemma merge_spec ours : forall theirs, Forall entry_of ours ->
  exists added, merge_into theirs ours = theirs ++ added /\ firsts (fun e => ~ In e theirs) ours added.
Proof.
  induction ours as [|e ours IH]; intros theirs H; [exists []; rewrite app_nil_r; split; [reflexivity|constructor]|].
  inversion H as [|? ? He Hr]; subst. cbn [merge_into]. pose proof (pcontains_iff theirs e He) as P.
  destruct (pcontains theirs e).
  - destruct (IH theirs Hr) as (ad & -> & F). exists ad. split; [reflexivity|]. apply firsts_skip; [|assumption]. intros Hn. apply Hn, P. reflexivity.
  - destruct (IH (theirs ++ [e]) Hr) as (ad & -> & F). exists (e :: ad). rewrite <- app_assoc. split; [reflexivity|]. apply firsts_take.
    + intros Hn. apply P in Hn. discriminate.
    + eapply firsts_ext; [|exact F]. intros y. cbn. rewrite in_app_iff. cbn. intuition congruence.
Qed.
Lemma merge_all_in ours : forall theirs, Forall entry_of ours -> (forall e, In e ours -> In e theirs) -> merge_into theirs ours = theirs.
Proof.
  induction ours as [|e ours IH]; intros theirs H Hi; [reflexivity|]. inversion H as [|? ? He Hr]; subst. cbn [merge_into].
  replace (pcontains theirs e) with true by (symmetry; apply pcontains_iff; [assumption|apply Hi; now left]).
  apply IH; [assumption|]. intros x Hx. apply Hi. now right.
Qed.
Lemma firsts_sound {A} (P : A -> Prop) l l' : firsts P l l' -> NoDup l' /\ (forall x, In x l' -> In x l /\ P x).
Proof.
  induction 1 as [W|W x l l' Hw F [N I]|W x l l' Hw F [N I]].
  - split; [constructor|intros x []].
  - split.
    + constructor; [|assumption]. intros Hx. apply I in Hx as [_ [_ Hx]]. now apply Hx.
    + intros y [->|Hy]; [split; [now left|assumption]|]. apply I in Hy as (? & ? & ?). split; [now right|assumption].
  - split; [assumption|]. intros y Hy. apply I in Hy as [? ?]. split; [now right|assumption].
Qed.
Lemma merge_in ours : forall theirs e, Forall entry_of ours -> In e (merge_into theirs ours) <-> In e theirs \/ In e ours.
Proof.
  induction ours as [|x ours IH]; intros theirs e H; [cbn; tauto|]. inversion H as [|? ? He Hr]; subst. cbn [merge_into].
  rewrite IH by assumption. pose proof (pcontains_iff theirs x He) as P. destruct (pcontains theirs x).
  - assert (In x theirs) by now apply P. cbn. intuition (subst; auto).
  - rewrite in_app_iff. cbn. tauto.
Qed.
Lemma merge_full theirs ours : Forall entry_of ours ->
  exists added, merge_into theirs ours = theirs ++ added /\ firsts (fun e => ~ In e theirs) ours added /\
    NoDup added /\ (forall e, In e added <-> In e ours /\ ~ In e theirs) /\ merge_into (theirs ++ added) ours = theirs ++ added.
Proof.
  intros H. destruct (merge_spec ours theirs H) as (ad & E & F). exists ad. split; [assumption|]. split; [assumption|].
  destruct (firsts_sound _ _ _ F) as [N I]. split; [assumption|].
  assert (forall e, In e ours -> In e (theirs ++ ad)) as J by (intros e He; rewrite <- E; apply merge_in; auto).
  split; [|apply merge_all_in; assumption]. intros e. split; [apply I|]. intros [He Hn]. apply J, in_app_iff in He. tauto.
Qed.

Section Layers.
Context {PD : Type}.
Lemma contents_eq (ls : list (layer PD)) : forall n,
  layercontents_from n ls =
  map (fun nl => entry (fst nl) (snd nl))
      (filter (fun nl => l_visible (snd nl)) (combine (seq n (length ls)) ls)).
Proof.
  induction ls as [|l ls IH]; intros n; [reflexivity|]. cbn [layercontents_from length seq combine filter snd].
  destruct (l_visible l); cbn [negb map fst snd]; rewrite IH; [|reflexivity]. f_equal. unfold entry, to_glyphs_dir. destruct n; reflexivity.
Qed.
Lemma contents_entries (ls : list (layer PD)) n : Forall entry_of (layercontents_from n ls).
Proof. rewrite contents_eq. apply Forall_forall. intros v Hv. apply in_map_iff in Hv as (x & <- & _). eexists _, _; reflexivity. Qed.
End Layers.

Lemma value_unique f p q : same_value f p -> same_value f q -> QArith_base.Qeq p q.
Proof. intros (v & E & H) (w & E' & H'). rewrite E in E'. injection E' as <-. rewrite <- H. exact H'. Qed.

Section Glyphs.
Context {PD : Type}.
Lemma set_type_eq (i : inner PD) t o : (exists i', inner_set_type i t o = Ok i') \/ (inner_set_type i t o = Panic /\ (i = Cubic [] \/ i = Quad [])).
Proof. destruct i as [[|p l]|[|q l]|l b]; cbn; eauto. Qed.

Lemma layers_upgrade_iff (ls : list (layer PD)) : forall l,
  fst (layers_upgrade_ops ls l) = Ok tt <-> Forall2 (fun y x => length x = length (l_outline y)) ls l.
Proof.
  induction ls as [|y ls IH]; intros [|x l]; cbn [layers_upgrade_ops fst].
  - split; [constructor|reflexivity].
  - split; [discriminate|inversion 1].
  - split; [discriminate|inversion 1].
  - destruct (Nat.lt_trichotomy (length x) (length (l_outline y))) as [H|[H|H]].
    + destruct (upgrade_ops_short (l_outline y) x H) as (o & -> & _). cbn [fst]. split; [discriminate|inversion 1; subst; lia].
    + destruct (upgrade_ops_ok (l_outline y) x H) as (o & -> & _). specialize (IH l). destruct (layers_upgrade_ops ls l) as [r ls'].
      cbn [fst] in *. rewrite IH. split; [now constructor|inversion 1; subst; assumption].
    + destruct (upgrade_ops_long (l_outline y) x H) as (o & -> & _). cbn [fst]. split; [discriminate|inversion 1; subst; lia].
Qed.
Lemma layers_upgrade_total (ls : list (layer PD)) : forall l, fst (layers_upgrade_ops ls l) <> Panic.
Proof.
  induction ls as [|y ls IH]; intros [|x l]; cbn [layers_upgrade_ops fst]; try discriminate.
  destruct (Nat.lt_trichotomy (length x) (length (l_outline y))) as [H|[H|H]].
  - destruct (upgrade_ops_short (l_outline y) x H) as (o & -> & _). discriminate.
  - destruct (upgrade_ops_ok (l_outline y) x H) as (o & -> & _). specialize (IH l). destruct (layers_upgrade_ops ls l) as [r ls']. exact IH.
  - destruct (upgrade_ops_long (l_outline y) x H) as (o & -> & _). discriminate.
Qed.
Lemma mapM_cubic (o : outline PD) : mapM (fun c => cubic_points (mc_inner c)) (map mcontour_of o) = Ok o.
Proof. exact (upgrade_downgrade o). Qed.
End Glyphs.
