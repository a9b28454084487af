(** Saving what was loaded from a saved file. *)
Require Import Coq.Strings.String Coq.Lists.List Coq.Arith.Arith Coq.NArith.NArith Coq.ZArith.ZArith Coq.Bool.Bool Coq.Floats.SpecFloat Coq.micromega.Lia.
Require Import Verif.Model.Base Verif.Model.Text Verif.Model.Float Verif.Model.Num Verif.Model.RustNum Verif.Model.Point Verif.Model.Contour
  Verif.Model.Create Verif.Model.Conv Verif.Model.Strings Verif.Model.Names Verif.Model.Pedantry Verif.Model.Color Verif.Model.Xml
  Verif.Model.Parts Verif.Model.Read Verif.Model.Write
  Verif.Spec.TextSpec Verif.Spec.NumSpec Verif.Spec.ContourSpec Verif.Spec.OutlineSpec Verif.Spec.GlyphSpec Verif.Spec.DocumentSpec
  Verif.Spec.OpenSpec Verif.Spec.AgainSpec
  Verif.Facts.ContourFacts Verif.Facts.RustNumFacts Verif.Facts.ColorFacts Verif.Facts.NamesFacts Verif.Facts.TextFacts Verif.Facts.CreateFacts Verif.Facts.ConvFacts
  Verif.Facts.XmlFacts Verif.Facts.GlyphFacts Verif.Facts.DocumentFacts Verif.Facts.WrittenFacts Verif.Facts.OpenFacts.
Import ListNotations.
Local Open Scope string_scope.
Local Open Scope list_scope.
Local Open Scope nat_scope.

(** ** Contours *)
Section Contours.
Context (L : numlib) {PD : Type}.
Implicit Types p q z n : point PD.
Implicit Types c t m : list (point PD).

Definition listing z m : list glifpoint := gp_of_point L z :: flat_map kept1 (triples L z m) ++ offs_between L (last m z) z.

Lemma cubic_listing dbg f p t : cubic_contour_form (p :: t) -> pptype p <> Curve -> into_glifpoints L dbg (S f) (p :: t) = Some (Ok (listing p t)).
Proof.
  intros (p0 & t0 & [= <- <-] & Hp & Ht) Ec.
  rewrite (proj2 (into_glifpoints_spec L dbg f (p :: t)) p t eq_refl).
  2:{ intros x [<-|Hx]; [destruct Hp as [[X _]|[X|X]]; rewrite X; split; discriminate|].
      pose proof (proj1 (Forall_forall _ _) Ht x Hx) as [X|X]; rewrite X; split; discriminate. }
  2:{ intros Hn. pose proof (Hn p (or_introl eq_refl)) as X. destruct Hp as [[Y _]|[Y|Y]]; congruence. }
  do 2 f_equal. unfold all_written, listing. cbn [triples flat_map].
  assert (kept1 (triple_of L (last t p) p) = [gp_of_point L p]) as ->.
  { unfold kept1, triple_of. cbn. destruct Hp as [[X _]|[X|X]]; rewrite X in *; (reflexivity || congruence). }
  assert (offs_between L (last t p) p = []) as ->.
  { unfold offs_between. destruct Hp as [[X _]|[X|X]]; rewrite X in *; (reflexivity || congruence). }
  rewrite app_nil_r. cbn [app started].
  assert (offcurve (gp_of_point L p) = false) as ->; [|reflexivity].
  unfold offcurve. cbn. destruct Hp as [[X _]|[X|X]]; rewrite X; reflexivity.
Qed.

Lemma triples_snoc q m x : triples L q (m ++ [x]) = triples L q m ++ [triple_of L (last m q) x].
Proof. revert q. induction m as [|y m IH]; intros q; [reflexivity|]. cbn [app triples]. now rewrite IH, last_cons_default. Qed.

Lemma cubic_listing_earlier dbg f p t m z : cubic_contour_form (p :: t) -> pptype p = Curve -> p :: t = m ++ [z] ->
  into_glifpoints L dbg (S f) (p :: t) = Some (Ok (listing z m)).
Proof.
  intros (p0 & t0 & [= <- <-] & Hp & Ht) Ec Em.
  rewrite (proj2 (into_glifpoints_spec L dbg f (p :: t)) p t eq_refl).
  2:{ intros x [<-|Hx]; [destruct Hp as [[X _]|[X|X]]; rewrite X; split; discriminate|].
      pose proof (proj1 (Forall_forall _ _) Ht x Hx) as [X|X]; rewrite X; split; discriminate. }
  2:{ intros Hn. pose proof (Hn p (or_introl eq_refl)) as X. congruence. }
  do 2 f_equal. unfold all_written, listing.
  assert (curvy (pptype z)) as Hz.
  { assert (In z (p :: t)) as X by (rewrite Em; apply in_app_iff; right; now left).
    destruct X as [<-|X]; [now right|]. exact (proj1 (Forall_forall _ _) Ht z X). }
  assert (last t p = z) as -> by (rewrite <- (last_cons_default p t p), Em; apply last_last).
  rewrite Em, triples_snoc, flat_map_app. cbn [flat_map]. rewrite app_nil_r, kept_curvy by assumption. rewrite app_assoc. unfold started.
  assert (exists g r, flat_map kept1 (triples L z m) ++ offs_between L (last m z) z = g :: r /\ offcurve g = true) as (g & r & E & Hg).
  { destruct m as [|y m].
    - cbn [app] in Em. injection Em as -> _. cbn [triples flat_map app last]. unfold offs_between. rewrite Ec.
      do 2 eexists. split; [reflexivity|]. apply gp_handle_off.
    - cbn [app] in Em. injection Em as <- _. cbn [triples flat_map]. rewrite kept_curvy by (now right).
      unfold offs_between at 1. rewrite Ec. do 2 eexists. split; [reflexivity|]. apply gp_handle_off. }
  rewrite E. cbn [app]. rewrite Hg. change (g :: r ++ [gp_of_point L z]) with ((g :: r) ++ [gp_of_point L z]). now rewrite rotate_right1_snoc.
Qed.

(** Writing what was read back. *)
Lemma offs_restored q q' p n : (pptype p = Curve -> q' = p) -> offs_between L (restored q q') (restored p n) = offs_between L q p.
Proof.
  intros Hq. unfold offs_between, gp_from_handle, handle_or_colocated. cbn [restored pptype get_handle pa pb px py].
  destruct (pptype p) eqn:E; try reflexivity. rewrite (Hq eq_refl). unfold out_handle, in_handle. rewrite E.
  unfold spot. destruct (pa q), (pb p); reflexivity.
Qed.
Lemma gp_restored p n : gp_of_point L (restored p n) = gp_of_point L p. Proof. reflexivity. Qed.

Lemma triples_restored n : forall t q, Forall (fun p => curvy (pptype p)) t -> exists r q',
  restore q t n = restored q q' :: r /\ (q' = match t with [] => n | x :: _ => x end) /\
  flat_map kept1 (triples L (restored q q') r) = flat_map kept1 (triples L q t) /\ last r (restored q q') = restored (last t q) n.
Proof.
  induction t as [|p t IH]; intros q Hf.
  - exists [], n. cbn. auto.
  - inversion_clear Hf as [|? ? Hp Ht]. destruct (IH p Ht) as (r & q' & E1 & E2 & E3 & E4).
    exists (restored p q' :: r), p. split; [cbn [restore]; now rewrite E1|]. split; [reflexivity|]. split.
    + cbn [triples flat_map]. rewrite E3. f_equal. rewrite !kept_curvy by exact Hp. rewrite gp_restored. f_equal. now apply offs_restored.
    + now rewrite !last_cons_default, E4.
Qed.

Lemma listing_restored z m z' m' : Forall (fun p => curvy (pptype p)) m -> restore z m z = z' :: m' -> listing z' m' = listing z m.
Proof.
  intros Hm E. destruct (triples_restored z m z Hm) as (r & q' & E1 & E2 & E3 & E4). rewrite E1 in E. injection E as <- <-.
  unfold listing. rewrite E3, E4, gp_restored. do 2 f_equal. now apply offs_restored.
Qed.

Lemma stored_unique_as c c1 c2 : stored_as c c1 -> stored_as c c2 -> c1 = c2.
Proof.
  intros [L1 H1] [L2 H2]. apply nth_error_ext. intros i. destruct (nth_error c i) as [p|] eqn:E.
  - destruct (next_some c i p E) as (q & Eq). destruct (H1 i p q E Eq) as (p1 & A1 & A2 & A3 & A4 & A5). destruct (H2 i p q E Eq) as (p2 & B1 & B2 & B3 & B4 & B5).
    rewrite A1, B1. f_equal. destruct p1, p2. unfold shown in *. cbn in *. congruence.
  - apply nth_error_None in E. assert (nth_error c1 i = None) as -> by (apply nth_error_None; lia). symmetry. apply nth_error_None. lia.
Qed.
Lemma stored_restore z m c' : stored_as (z :: m) c' -> c' = restore z m z.
Proof. intros H. eapply stored_unique_as; [exact H|apply restore_stored]. Qed.

Lemma restored_from c c' : cubic_contour_form c -> contour_restored c c' ->
  exists z m, c' = restore z m z /\ (pptype z = Move \/ curvy (pptype z)) /\ (pptype z = Move -> m <> []) /\ Forall (fun p => curvy (pptype p)) m /\
    ((exists p t, c = p :: t /\ pptype p <> Curve /\ z = p /\ m = t) \/ (exists p t, c = p :: t /\ pptype p = Curve /\ p :: t = m ++ [z])).
Proof.
  intros (p & t & -> & Hp & Ht) [A B]. destruct (ptype_eqb_spec (pptype p) Curve) as [E|E].
  - destruct (B p t eq_refl E) as (c1 & (z & m & E1 & ->) & S). exists z, m. split; [now apply stored_restore|].
    assert (forall x, In x (p :: t) -> curvy (pptype x)) as C.
    { intros x [<-|Hx]; [now right|]. rewrite Forall_forall in Ht. exact (Ht x Hx). }
    assert (curvy (pptype z)) as Cz by (apply C; rewrite E1; apply in_app_iff; right; now left).
    split; [now right|]. split; [intros X; destruct Cz; congruence|]. split.
    { apply Forall_forall. intros x Hx. apply C. rewrite E1. apply in_app_iff. now left. }
    right. eauto 6.
  - exists p, t. split; [apply stored_restore, (A p t eq_refl E)|]. split; [destruct Hp as [[X _]|[X|X]]; [now left|right; now left|congruence]|].
    split; [intros X; destruct Hp as [[_ Y]|[Y|Y]]; congruence|]. split; [exact Ht|]. left. eauto 6.
Qed.

Lemma restored_unique c c1 c2 : cubic_contour_form c -> contour_restored c c1 -> contour_restored c c2 -> c1 = c2.
Proof.
  intros (p & t & -> & _ & _) [A B] [A' B']. destruct (ptype_eqb_spec (pptype p) Curve) as [E|E].
  - destruct (B p t eq_refl E) as (d & (x & m & E1 & ->) & S). destruct (B' p t eq_refl E) as (d' & (x' & m' & E1' & ->) & S').
    rewrite E1 in E1'. apply app_inj_tail in E1' as [<- <-]. eapply stored_unique_as; eassumption.
  - eapply stored_unique_as; [apply (A p t eq_refl E)|apply (A' p t eq_refl E)].
Qed.

Lemma restore_types n : forall t q, map pptype (restore q t n) = map pptype (q :: t).
Proof. induction t as [|p t IH]; intros q; [reflexivity|]. cbn [restore map]. rewrite IH. reflexivity. Qed.

Lemma types_form c c' : map pptype c' = map pptype c -> cubic_contour_form c -> cubic_contour_form c'.
Proof.
  intros E (p & t & -> & Hp & Ht). destruct c' as [|p' t']; [discriminate|]. injection E as Ep Et. exists p', t'. split; [reflexivity|]. split.
  - rewrite Ep. destruct Hp as [[X Y]|[X|X]]; auto. left. split; [exact X|]. intros ->. apply Y. destruct t; [reflexivity|discriminate].
  - rewrite Forall_forall in *. intros q Hq. assert (In (pptype q) (map pptype t)) as X by (rewrite <- Et; now apply in_map).
    apply in_map_iff in X as (q0 & <- & H0). auto.
Qed.

Lemma restore_form z m : (pptype z = Move \/ curvy (pptype z)) -> (pptype z = Move -> m <> []) -> Forall (fun p => curvy (pptype p)) m ->
  cubic_contour_form (restore z m z).
Proof.
  intros Hz Hm Hf. apply (types_form (z :: m)); [apply restore_types|]. exists z, m. split; [reflexivity|]. split; [|exact Hf].
  destruct Hz as [X|[X|X]]; auto.
Qed.

Lemma restore_storable z m : storable (restore z m z).
Proof.
  intros i p' q' Hi Hn. destruct (restore_stored z m) as [Hl Hs]. rewrite Hl in Hn.
  assert (exists p, nth_error (z :: m) i = Some p) as (p & Ep).
  { destruct (nth_error (z :: m) i) eqn:X; [eauto|]. apply nth_error_None in X. rewrite <- Hl in X. apply nth_error_None in X. congruence. }
  destruct (next_some _ _ _ Ep) as (q & Eq). destruct (Hs i p q Ep Eq) as (p1 & A1 & A2 & A3 & A4 & A5).
  rewrite Hi in A1. injection A1 as <-. destruct (next_some _ _ _ Eq) as (q2 & Eq2). destruct (Hs _ q q2 Eq Eq2) as (q1 & B1 & B2 & _).
  rewrite Hn in B1. injection B1 as <-. unfold shown in A2, B2.
  assert (pptype q' = pptype q) as Tq by congruence. assert (pptype p' = pptype p) as Tp by congruence.
  split; [exact A3|]. rewrite A4, A5, Tq, Tp. unfold spot. split; [destruct (pptype q), (pa p)|destruct (pptype p), (pb p)]; split; intros X; congruence.
Qed.

Lemma in_restore n : forall t q x, In x (restore q t n) -> exists y y', In y (q :: t) /\ x = restored y y'.
Proof.
  induction t as [|p t IH]; intros q x H.
  - destruct H as [<-|[]]. exists q, n. split; [now left|reflexivity].
  - destruct H as [<-|H]; [exists q, p; split; [now left|reflexivity]|]. destruct (IH p x H) as (y & y' & Hy & ->). exists y, y'. split; [now right|reflexivity].
Qed.

Lemma restored_ok c c' : contour_ok L c -> contour_restored c c' -> contour_ok L c'.
Proof.
  intros [Hf Hl] Hr. destruct (restored_from c c' Hf Hr) as (z & m & -> & Hz & Hm & Ht & Hc). split; [now apply restore_form|].
  intros x f Hx Hin. apply in_restore in Hx as (y & y' & Hy & ->).
  assert (In y c) as Hyc.
  { destruct Hc as [(p & t & -> & _ & -> & ->)|(p & t & -> & _ & E)]; [exact Hy|]. rewrite E. apply in_app_iff. destruct Hy as [<-|Hy]; [right; now left|now left]. }
  apply (Hl y f Hyc). unfold coordinates in *. cbn [restored px py pa pb] in Hin. unfold out_handle, in_handle, spot in Hin. rewrite !in_app_iff in *.
  destruct Hin as [H|[H|H]]; [now left| |].
  - destruct (pptype y'); try now destruct H. destruct (pa y); [right; left|left]; exact H.
  - destruct (pptype y); try now destruct H. destruct (pb y); [right; right|left]; exact H.
Qed.

Lemma rotation_same {A} (x : A) (m : list A) : x :: m = m ++ [x] -> forall y, In y m -> y = x.
Proof.
  revert x. induction m as [|a m IH]; intros x E y []; cbn [app] in E; injection E as -> E.
  - congruence.
  - now apply IH.
Qed.

Lemma looks_dec (p q : point PD) : looks p = looks q \/ looks p <> looks q.
Proof.
  assert (forall a b : f32, {a = b} + {a <> b}) as Df by (decide equality; try apply Z.eq_dec; try apply Pos.eq_dec; apply bool_dec).
  assert (forall a b : handle, {a = b} + {a <> b}) as Dh by (decide equality).
  assert (forall a b : option str, {a = b} + {a <> b}) as Ds by (decide equality; apply list_eq_dec, N.eq_dec).
  assert (forall a b : ptype, {a = b} + {a <> b}) as Dt by (decide equality).
  unfold looks, shown.
  assert (forall a b : f32 * f32 * option str * ptype * bool * handle * handle, {a = b} + {a <> b}) as D by (repeat decide equality).
  destruct (D (px p, py p, pname p, pptype p, psmooth p, spot p (pa p), spot p (pb p)) (px q, py q, pname q, pptype q, psmooth q, spot q (pa q), spot q (pb q))); auto.
Qed.

Lemma restored_looks (y y' x x' : point PD) : pptype y = Curve -> pptype y' = Curve -> pptype x = Curve -> pptype x' = Curve ->
  (restored y y' = restored x x' <-> looks y = looks x).
Proof.
  intros E1 E2 E3 E4. unfold restored, out_handle, in_handle, looks, shown. rewrite E1, E2, E3, E4. split; intros H; [injection H|]; intros; congruence.
Qed.

Lemma in_restore_of n : forall t q y, In y (q :: t) -> exists y', In (restored y y') (restore q t n) /\ (In y' t \/ y' = n).
Proof.
  induction t as [|p t IH]; intros q y H.
  - destruct H as [<-|[]]. exists n. cbn. auto.
  - destruct H as [<-|H]; [exists p; cbn; auto|]. destruct (IH p y H) as (y' & H1 & H2). exists y'. cbn. tauto.
Qed.
Lemma in_restore_next n : forall t q x, In x (restore q t n) -> exists y y', In y (q :: t) /\ x = restored y y' /\ (In y' t \/ y' = n).
Proof.
  induction t as [|p t IH]; intros q x H.
  - destruct H as [<-|[]]. exists q, n. cbn. auto.
  - destruct H as [<-|H]; [exists q, p; cbn; auto|]. destruct (IH p x H) as (y & y' & Hy & -> & H'). exists y, y'. cbn. tauto.
Qed.

Lemma all_same_rotation {A} (d : A) (m : list A) (z : A) : (forall x, In x (m ++ [z]) -> x = d) -> z :: m = m ++ [z].
Proof.
  intros H. assert (z = d) as -> by (apply H, in_app_iff; right; now left).
  assert (forall x, In x m -> x = d) as Hm by (intros x Hx; apply H, in_app_iff; now left). clear H.
  induction m as [|a m IH]; [reflexivity|]. rewrite (Hm a (or_introl eq_refl)). cbn [app]. f_equal. apply IH. intros x Hx. apply Hm. now right.
Qed.

Context (HL : forall f, f32_of_iof (iof_of_f32 L f) = f).

Lemma contour_again dbg c c' : contour_ok L c -> contour_restored c c' ->
  (contour_xml L dbg c' = contour_xml L dbg c <-> ~ wandering c).
Proof.
  intros Hok Hr. pose proof (restored_ok c c' Hok Hr) as Hok'. pose proof Hok as [Hf _]. pose proof Hok' as [Hf' _].
  destruct (restored_from c c' Hf Hr) as (z & m & Ec & Hz & Hm & Ht & Hc).
  assert (length c' = length c) as Hlen.
  { rewrite Ec, restore_length. destruct Hc as [(p & t & -> & _ & -> & ->)|(p & t & -> & _ & E)]; [reflexivity|]. rewrite E, app_length. cbn. lia. }
  assert (contour_xml L dbg c = gcontour_xml L dbg (listing z m)) as Wc.
  { unfold contour_xml. replace (3 * length c + 3) with (S (3 * length c + 2)) by lia.
    destruct Hc as [(p & t & -> & Ep & -> & ->)|(p & t & -> & Ep & E)]; [now rewrite cubic_listing|now rewrite (cubic_listing_earlier dbg _ p t m z)]. }
  destruct (restore_head z m z) as (r & Er & Hrl). set (z' := restored z _) in Er. assert (listing z' r = listing z m) as LR by (apply listing_restored; [exact Ht|exact Er]).
  assert (pptype z' = pptype z) as Tz by reflexivity.
  destruct (ptype_eqb_spec (pptype z) Curve) as [Ez|Ez].
  - (* starts with a curve again *)
    destruct Hc as [(p & t & -> & Ep & -> & ->)|(p & t & Ec0 & Ep & E)]; [congruence|].
    assert (forall x, In x c <-> In x (z :: m)) as Hin.
    { intros x. rewrite Ec0, E, in_app_iff. cbn. tauto. }
    destruct (exists_last (l:=c')) as (m1 & z1 & E1); [rewrite Ec, Er; discriminate|].
    assert (contour_xml L dbg c' = gcontour_xml L dbg (listing z1 m1)) as Wc'.
    { unfold contour_xml. replace (3 * length c' + 3) with (S (3 * length c' + 2)) by lia. rewrite Ec, Er in E1, Hf' |- *. now rewrite (cubic_listing_earlier dbg _ z' r m1 z1). }
    split.
    + intros HX (p2 & m2 & q2 & W1 & W2 & W3 & x & y & Wx & Wy & Wd).
      destruct (contour_xml_restored L HL dbg c Hok) as (e & gps & c0 & A1 & A2 & A3 & A4 & A5 & A6 & A7).
      assert (c0 = c') as -> by (eapply restored_unique; [exact Hf|exact A7|exact Hr]).
      destruct (contour_xml_restored L HL dbg c' Hok') as (e2 & gps2 & c2 & B1 & B2 & B3 & B4 & B5 & B6 & B7).
      rewrite HX, A1 in B1. injection B1 as <-. rewrite A3 in B3. injection B3 as <-. rewrite A5 in B5. injection B5 as <-.
      destruct B7 as [_ B7]. destruct (B7 z' r) as (c1 & O1 & S1); [rewrite Ec; exact Er|exact Ez|].
      assert (storable c') as St by (rewrite Ec; apply restore_storable). apply (storable_exact c1 c' (storable_earlier _ _ O1 St)) in S1. subst c1.
      destruct O1 as (u & l & U1 & U2). rewrite U2 in U1.
      assert (forall v, In v c' -> v = u) as All.
      { intros v Hv. rewrite U2 in Hv. destruct Hv as [<-|Hv]; [reflexivity|]. exact (rotation_same u l U1 v Hv). }
      assert (forall v, In v c' -> pptype v = Curve) as AllC.
      { intros v Hv. rewrite (All v Hv). rewrite <- (All z'); [exact Ez|]. rewrite Ec, Er. now left. }
      assert (forall v, In v (z :: m) -> pptype v = Curve) as AllZ.
      { intros v Hv. destruct (in_restore_of z m z v Hv) as (v' & H1 & _). apply (AllC (restored v v')). now rewrite Ec. }
      assert (forall v, In v (z :: m) -> looks v = looks z) as AllL.
      { intros v Hv. destruct (in_restore_of z m z v Hv) as (v' & H1 & H2). destruct (in_restore_of z m z z (or_introl eq_refl)) as (w' & H3 & H4).
        apply (restored_looks v v' z w'); [now apply AllZ|apply AllZ; destruct H2 as [H2| ->]; [now right|now left]|exact Ez|apply AllZ; destruct H4 as [H4| ->]; [now right|now left]|].
        rewrite (All (restored v v')) by (now rewrite Ec). symmetry. apply All. now rewrite Ec. }
      apply Wd. rewrite (AllL x), (AllL y); [reflexivity|now apply Hin|now apply Hin].
    + intros HW. rewrite Wc, Wc'. f_equal. rewrite <- LR.
      assert (z1 :: m1 = z' :: r) as X; [|injection X as -> ->; reflexivity].
      rewrite <- Er, <- Ec, E1. apply (all_same_rotation z').
      (* all look alike, unless the contour is a single point *)
      destruct m as [|p0 m].
      { cbn in Er, Ec. rewrite <- E1, Ec. intros v [<-|[]]. now injection Er. }
      assert (exists mm, c = p0 :: mm ++ [z]) as (mm & Emm).
      { rewrite Ec0, E. cbn [app]. eauto. }
      assert (pptype p0 = Curve) as Tp0 by (rewrite Ec0 in Emm; injection Emm as <- _; exact Ep).
      assert (forall v w, In v c -> In w c -> looks v = looks w) as Alike.
      { intros v w Hv Hw. destruct (looks_dec v w) as [X|X]; [exact X|]. exfalso. apply HW. exists p0, mm, z. repeat (split; [assumption|]). eauto. }
      assert (forall v, In v (z :: p0 :: m) -> pptype v = Curve) as AllZ.
      { intros v Hv. assert (looks v = looks z) as X by (apply Alike; apply Hin; [exact Hv|now left]). unfold looks, shown in X. congruence. }
      intros v Hv. rewrite <- E1, Ec in Hv. apply in_restore_next in Hv as (y & y' & Hy & -> & Hy'). subst z'.
      cbv iota. apply (restored_looks y y' z p0); [now apply AllZ|apply AllZ; destruct Hy' as [Hy'| ->]; [now right|now left]|exact Ez|exact Tp0|].
      apply Alike; apply Hin; [exact Hy|now left].
  - (* starts with something else *)
    assert (contour_xml L dbg c' = contour_xml L dbg c) as X.
    { rewrite Wc. unfold contour_xml. replace (3 * length c' + 3) with (S (3 * length c' + 2)) by lia. rewrite Ec, Er in Hf' |- *. rewrite cubic_listing by (assumption || congruence). now rewrite LR. }
    split; [intros _|intros _; exact X]. intros (p2 & m2 & q2 & W1 & W2 & W3 & _). apply Ez.
    destruct Hc as [(p & t & -> & Ep & -> & ->)|(p & t & Ec0 & Ep & E)]; [congruence|].
    rewrite <- Ec0, W1 in E. change (p2 :: m2 ++ [q2]) with ((p2 :: m2) ++ [q2]) in E. apply app_inj_tail in E as [_ <-]. exact W3.
Qed.
End Contours.

(** ** Glyphs *)
Section Glyphs.
Context (L : numlib) {PD PL : Type} (pd0 : PD) (P : plistlib PL) (dbg : bool).
Implicit Types g : glif PD PL.

Definition components_in (root : element) : list element :=
  match named "outline" root with [] => [] | o :: _ => named "component" o end.

Lemma contours_named ces : forall cs : list (contour PD), mapM (contour_xml L dbg) cs = Ok ces -> Forall (fun e => ename e = lit "contour") ces.
Proof. intros cs H. apply mapM_Forall2 in H. eapply Forall2_right; [|exact H]. intros c e He. now apply contour_written_ok in He. Qed.

Lemma glif_xml_children g : glif_xml L P dbg g =
  let* ces := mapM (contour_xml L dbg) (contours g) in
  let oc := map NElem ces ++ map NElem (map (component_xml L) (cs_vec (g_components g))) in
  Ok (Element (lit "glyph") [(lit "name", g_name g); (lit "format", lit "2")]
    (match g_width g with Some w => [NElem (advance_xml w)] | None => [] end ++ map NElem (map codepoint_xml (g_unicode g)) ++ map NElem (map (anchor_xml L) (g_anchors g)) ++
     match oc with [] => [] | _ => [NElem (Element (lit "outline") [] oc)] end ++ flat_map (image_nodes L) (g_images g) ++
     map NElem (map (guideline_xml L) (g_guidelines g)) ++ match g_note g with Some n => [NElem (Element (lit "note") [] [NText n])] | None => [] end ++ lib_nodes P (g_lib g))).
Proof.
  unfold glif_xml. cbv zeta.
  assert (outline_children L dbg (g_outline g) = let* es := mapM (contour_xml L dbg) (contours g) in Ok (map NElem es)) as ->.
  { unfold outline_children, contours. now destruct (g_outline g) as [cs|]. }
  destruct (mapM (contour_xml L dbg) (contours g)) as [ces| |]; try reflexivity. cbn [bind]. rewrite !map_map. reflexivity.
Qed.

Lemma glif_xml_parts g root : glif_xml L P dbg g = Ok root -> exists ces ims,
  mapM (contour_xml L dbg) (contours g) = Ok ces /\ flat_map (image_nodes L) (g_images g) = map NElem ims /\
  named "guideline" root = map (guideline_xml L) (g_guidelines g) /\ named "image" root = ims /\
  contours_in root = ces /\ components_in root = map (component_xml L) (cs_vec (g_components g)).
Proof.
  rewrite glif_xml_children. destruct (mapM (contour_xml L dbg) (contours g)) as [ces| |] eqn:C; try discriminate. cbn [bind]. cbv zeta. intros H. injection H as <-.
  pose proof (contours_named ces _ C) as Nc. destruct (image_nodes_ok L (g_images g)) as (ims & I1 & I2 & _). exists ces, ims. split; [reflexivity|]. split; [exact I1|].
  destruct (lib_nodes_ok P (g_lib g)) as (ls & L1 & L2 & _). rewrite I1, L1.
  set (adv := match g_width g with Some w => [advance_xml w] | None => [] end).
  assert (match g_width g with Some w => [NElem (advance_xml w)] | None => [] end = map NElem adv) as -> by (subst adv; destruct (g_width g); reflexivity).
  assert (Forall (fun e => ename e = lit "advance") adv) as N1 by (subst adv; destruct (g_width g); repeat constructor).
  set (nt := match g_note g with Some n => [Element (lit "note") [] [NText n]] | None => [] end).
  assert (match g_note g with Some n => [NElem (Element (lit "note") [] [NText n])] | None => [] end = map NElem nt) as -> by (subst nt; destruct (g_note g); reflexivity).
  assert (Forall (fun e => ename e = lit "note") nt) as N7 by (subst nt; destruct (g_note g); repeat constructor).
  pose proof (Forall_map_name codepoint_xml (lit "unicode") (g_unicode g) (fun _ => eq_refl)) as N2.
  pose proof (Forall_map_name (anchor_xml L) _ (g_anchors g) (anchor_name L)) as N3.
  pose proof (Forall_map_name (guideline_xml L) _ (g_guidelines g) (guideline_name L)) as N6.
  pose proof (Forall_map_name (component_xml L) _ (cs_vec (g_components g)) (component_name L)) as Nk.
  set (us := map codepoint_xml (g_unicode g)) in *. set (an := map (anchor_xml L) (g_anchors g)) in *. set (gl := map (guideline_xml L) (g_guidelines g)) in *.
  set (kx := map (component_xml L) (cs_vec (g_components g))) in *.
  set (os := match ces ++ kx with [] => [] | _ :: _ => [Element (lit "outline") [] (map NElem ces ++ map NElem kx)] end).
  assert (match map NElem ces ++ map NElem kx with [] => [] | _ :: _ => [NElem (Element (lit "outline") [] (map NElem ces ++ map NElem kx))] end = map NElem os) as ->.
  { subst os. destruct ces, kx; reflexivity. }
  assert (Forall (fun e => ename e = lit "outline") os) as N4 by (subst os; destruct (ces ++ kx); repeat constructor).
  set (root := Element _ _ _).
  assert (forall n, named n root = children_named (lit n) (map NElem adv) ++ children_named (lit n) (map NElem us) ++ children_named (lit n) (map NElem an) ++
     children_named (lit n) (map NElem os) ++ children_named (lit n) (map NElem ims) ++ children_named (lit n) (map NElem gl) ++ children_named (lit n) (map NElem nt) ++ children_named (lit n) (map NElem ls)) as Hs.
  { intros n. unfold named, root. cbn [echildren]. rewrite !children_named_app. reflexivity. }
  assert (named "guideline" root = gl) as -> by (rewrite Hs, (children_all _ gl N6), (children_none _ _ adv N1), (children_none _ _ us N2), (children_none _ _ an N3), (children_none _ _ os N4), (children_none _ _ ims I2), (children_none _ _ nt N7), (children_none _ _ ls L2) by discriminate; cbn [app]; now rewrite ?app_nil_r).
  split; [reflexivity|].
  assert (named "image" root = ims) as -> by (rewrite Hs, (children_all _ ims I2), (children_none _ _ adv N1), (children_none _ _ us N2), (children_none _ _ an N3), (children_none _ _ os N4), (children_none _ _ gl N6), (children_none _ _ nt N7), (children_none _ _ ls L2) by discriminate; cbn [app]; now rewrite ?app_nil_r).
  split; [reflexivity|]. unfold contours_in, components_in.
  assert (named "outline" root = os) as -> by (rewrite Hs, (children_all _ os N4), (children_none _ _ adv N1), (children_none _ _ us N2), (children_none _ _ an N3), (children_none _ _ ims I2), (children_none _ _ gl N6), (children_none _ _ nt N7), (children_none _ _ ls L2) by discriminate; cbn [app]; now rewrite ?app_nil_r).
  subst os. destruct (ces ++ kx) as [|x0 l0] eqn:E.
  - apply app_eq_nil in E as [-> ->]. auto.
  - unfold named. cbn [echildren]. rewrite !children_named_app, (children_all _ ces Nc), (children_all _ kx Nk), (children_none _ _ kx Nk), (children_none _ _ ces Nc), app_nil_r by discriminate. auto.
Qed.

(** Numbers written as they are. *)
Lemma matrix_again one zero e m m' : Forall (settled L) (members m) -> matrix_says L one zero e m' ->
  get e "xScale" = Some (iof_show L (m_xScale m)) -> get e "xyScale" = Some (iof_show L (m_xyScale m)) ->
  get e "yxScale" = Some (iof_show L (m_yxScale m)) -> get e "yScale" = Some (iof_show L (m_yScale m)) ->
  get e "xOffset" = Some (iof_show L (m_xOffset m)) -> get e "yOffset" = Some (iof_show L (m_yOffset m)) ->
  forall ident x, write_matrix L ident m' x = write_matrix L ident m x.
Proof.
  intros Hs (H1 & H2 & H3 & H4 & H5 & H6) E1 E2 E3 E4 E5 E6 ident x. rewrite Forall_forall in Hs.
  assert (forall d k i j, get e k = Some (iof_show L i) -> number_or L d e k j -> In i (members m) -> iof_show L j = iof_show L i) as R.
  { intros d k i j E [[X _]|(s & X & Y)] Hi; rewrite E in X; [discriminate|]. injection X as <-. now apply (Hs i Hi). }
  unfold write_matrix. rewrite (R _ _ _ _ E1 H1), (R _ _ _ _ E2 H2), (R _ _ _ _ E3 H3), (R _ _ _ _ E4 H4), (R _ _ _ _ E5 H5), (R _ _ _ _ E6 H6) by (cbn; tauto). reflexivity.
Qed.

Lemma component_again c c' : Forall (settled L) (members (c_matrix c)) -> component_says L (component_xml L c) c' -> component_xml L c' = component_xml L c.
Proof.
  intros Hs (H1 & H2 & H3 & _). unfold component_xml at 1. 
  rewrite (matrix_again _ _ (component_xml L c) (c_matrix c) (c_matrix c') Hs H2) by (unfold component_xml, write_matrix; attrs; reflexivity).
  unfold component_xml, write_matrix in H1, H3. revert H1 H3. attrs. intros H1 H3. injection H1 as H1. unfold component_xml. rewrite <- H1, H3. now destruct (c_identifier c).
Qed.

Lemma image_again i i' e : Forall (settled L) (members (i_matrix i)) -> image_try_xml L i = Ok e -> image_says L e i' -> image_try_xml L i' = Ok e.
Proof.
  intros Hs H ((s & H1 & H1') & H2 & H3 & _). unfold image_try_xml in *. destruct (i_filename i) as [s0|]; [|discriminate]. rewrite H1'.
  assert (e = write_matrix L (i_identifier i) (i_matrix i) (insert "fileName" s0 (new_element "image"))) as -> by (now injection H).
  rewrite (matrix_again _ _ _ (i_matrix i) (i_matrix i') Hs H2) by (unfold write_matrix; attrs; reflexivity).
  revert H1 H3. unfold write_matrix at 1 2. attrs. intros H1 H3. injection H1 as <-. rewrite H3. now destruct (i_identifier i).
Qed.

Lemma color_again c c' : (forall i, In i [cr c; cg c; cb c; ca c] -> settled L i /\ legible L i /\ ~ In comma (iof_show L i)) ->
  color_parse L (color_show L c) = Ok c' -> color_show L c' = color_show L c.
Proof.
  intros H E. destruct (color_round_trip_by L (fun j i => iof_show L j = iof_show L i) c) as (c2 & E2 & F).
  { intros i Hi. destruct (H i Hi) as (S & (j & J1 & _) & N). split; [exists j; split; [exact J1|now apply S]|exact N]. }
  rewrite E in E2. injection E2 as <-. inversion_clear F as [|? ? ? ? F1 F0]. inversion_clear F0 as [|? ? ? ? F2 F1']. inversion_clear F1' as [|? ? ? ? F3 F2']. inversion_clear F2' as [|? ? ? ? F4 _].
  unfold color_show. now rewrite F1, F2, F3, F4.
Qed.

Lemma guideline_again (l l' : guideline PD) : guideline_ok L l -> Forall (settled L) (gl_angle l :: numbers_of_color (gl_color l)) ->
  guideline_says L pd0 (guideline_xml L l) l' -> guideline_xml L l' = guideline_xml L l.
Proof.
  intros (Kx & Ky & _ & Kc) Hs ((sx & X1 & X2) & (sy & Y1 & Y2) & (sa & A1 & A2) & Hn & Hc & Hi & _).
  revert X1 Y1 A1 Hn Hi Hc. unfold guideline_xml. unfold color_says. attrs. intros [= <-] [= <-] [= <-] Hn Hi Hc. inversion_clear Hs as [|? ? Sa Sc].
  unfold legible_f32 in *. rewrite X2 in Kx. injection Kx as ->. rewrite Y2 in Ky. injection Ky as ->. rewrite (Sa _ A2).
  assert (gl_name l' = gl_name l) as -> by (rewrite Hn; now destruct (gl_name l)).
  assert (gl_identifier l' = gl_identifier l) as -> by (rewrite Hi; now destruct (gl_identifier l)).
  assert (option_map (color_show L) (gl_color l') = option_map (color_show L) (gl_color l)) as ->; [|reflexivity].
  destruct (gl_color l') as [c'|], (gl_color l) as [c|]; try reflexivity; try discriminate Hc.
  - destruct Hc as (s & [= <-] & T). apply color_text_parse in T. cbn [option_map]. f_equal. apply color_again; [|exact T].
    intros i Hi'. destruct (Kc c eq_refl i Hi'). rewrite Forall_forall in Sc. split; [now apply Sc|]. split; assumption.
  - destruct Hc as (s & X & _). discriminate.
Qed.

Context (HL : forall f, f32_of_iof (iof_of_f32 L f) = f).

Lemma contours_again (cs cs' : list (contour PD)) : Forall (contour_ok L) cs -> Forall2 contour_restored cs cs' ->
  (mapM (contour_xml L dbg) cs' = mapM (contour_xml L dbg) cs <-> forall c, In c cs -> ~ wandering c).
Proof.
  intros Hok F. induction F as [|c c' cs cs' Hr F IH].
  - split; [intros _ c []|reflexivity].
  - inversion_clear Hok as [|? ? Hc Hcs]. specialize (IH Hcs). pose proof (contour_again L HL dbg c c' Hc Hr) as A.
    assert (Forall (contour_ok L) cs') as Hcs'.
    { clear -Hcs F. induction F as [|x y l l' R _ IHF]; [constructor|]. inversion_clear Hcs. constructor; [eapply restored_ok; eassumption|auto]. }
    destruct (contour_xml_restored L HL dbg c Hc) as (e & _ & _ & E & _). destruct (contour_xml_restored L HL dbg c' (restored_ok L c c' Hc Hr)) as (e' & _ & _ & E' & _).
    destruct (contours_restored L HL dbg cs Hcs) as (es & _ & _ & Es & _). destruct (contours_restored L HL dbg cs' Hcs') as (es' & _ & _ & Es' & _).
    cbn [mapM]. rewrite E, E', Es, Es' in *. cbn [bind] in *. split.
    + intros H. injection H as -> ->. intros x [<-|Hx]; [now apply A|]. now apply (proj1 IH eq_refl).
    + intros H. assert (Ok e' = Ok e) as X by (apply A, H; now left). injection X as ->.
      assert (Ok es' = Ok es) as X by (apply IH; intros x Hx; apply H; now right). injection X as ->. reflexivity.
Qed.

Lemma images_again : forall imgs ims imgs', Forall (image_ok L) imgs -> (forall i, In i imgs -> Forall (settled L) (members (i_matrix i))) ->
  flat_map (image_nodes L) imgs = map NElem ims -> Forall2 (image_says L) ims imgs' -> flat_map (image_nodes L) imgs' = map NElem ims.
Proof.
  induction imgs as [|i imgs IH]; intros ims imgs' Hok Hs E F.
  - destruct ims; [|discriminate]. inversion F. reflexivity.
  - inversion_clear Hok as [|? ? Hi Hr]. destruct (image_xml_restored L i Hi) as (e & _ & Ee & _). cbn [flat_map] in E. unfold image_nodes at 1 in E. rewrite Ee in E. cbn [app] in E.
    destruct ims as [|e0 ims]; [discriminate|]. cbn [map] in E. injection E as <- E. inversion F as [|? i' ? imgs1 Fi Fr]; subst. cbn [flat_map map].
    rewrite (IH ims imgs1) by (try assumption; intros x Hx; apply Hs; now right). unfold image_nodes at 1. rewrite (image_again i i' e (Hs i (or_introl eq_refl)) Ee Fi). reflexivity.
Qed.

Lemma Forall2_map_l {A B C} (f : A -> B) (R : B -> C -> Prop) l m : Forall2 R (map f l) m <-> Forall2 (fun x y => R (f x) y) l m.
Proof.
  split.
  - revert m. induction l as [|x l IH]; intros m H; inversion H; subst; constructor; auto.
  - induction 1; constructor; auto.
Qed.
Lemma Forall2_maps {A B C} (f : A -> C) (h : B -> C) (R : A -> B -> Prop) l m : Forall2 R l m -> (forall x y, In x l -> R x y -> h y = f x) -> map h m = map f l.
Proof. induction 1 as [|x y l m Hr _ IH]; intros H; [reflexivity|]. cbn. rewrite (H x y (or_introl eq_refl) Hr). f_equal. apply IH. intros a b Ha. apply H. now right. Qed.

Lemma lib_again (l l' : lib PL) : lib_restored l l' -> lib_nodes P l' = lib_nodes P l.
Proof.
  destruct l as [|d|[n a c]], l' as [|d'|[n' a' c']]; cbn [lib_restored]; try tauto.
  - now intros ->.
  - cbn [echildren]. now intros ->.
Qed.

Theorem glyph_again g e g' : glyph_ok L P g -> (forall i, In i (free_numbers g) -> settled L i) ->
  glif_xml L P dbg g = Ok e -> read_element L pd0 P pedantry_default e = Ok g' ->
  exists e', glif_xml L P dbg g' = Ok e' /\ (e' = e <-> forall c, In c (contours g) -> ~ wandering c).
Proof.
  intros Hok Hs He Hr. pose proof Hok as (_ & _ & Ha & Hg & Hc & Hi & _ & Ho).
  destruct (glyph_xml_restored L pd0 P HL dbg pedantry_default g Hok eq_refl eq_refl) as (e0 & g0 & E1 & E2 & HR & _).
  rewrite He in E1. injection E1 as <-. rewrite Hr in E2. injection E2 as <-.
  destruct HR as (R1 & R2 & R3 & R4 & _ & _ & _ & R8 & R9 & R10).
  destruct (glif_xml_parts g e He) as (ces & ims & P1 & P2 & P3 & P4 & P5 & P6).
  apply read_element_says in Hr. destruct Hr as (_ & _ & _ & _ & _ & _ & Si & Sg & _ & _ & _ & _ & _ & gcs & o & So & _ & _).
  rewrite P4 in Si. rewrite P3 in Sg.
  assert (Forall2 (component_says L) (components_in e) (cs_vec (g_components g'))) as Sk.
  { unfold components_in. unfold outline_says in So. destruct (named "outline" e); [destruct So as [_ ->]; constructor|]. destruct So as (? & _ & _ & X). exact X. }
  rewrite P6 in Sk. apply (proj1 (Forall2_map_l _ _ _ _)) in Sk. apply (proj1 (Forall2_map_l _ _ _ _)) in Sg.
  assert (map (component_xml L) (cs_vec (g_components g')) = map (component_xml L) (cs_vec (g_components g))) as Ek.
  { eapply Forall2_maps; [exact Sk|]. intros c c' Hin X. apply component_again; [|exact X]. apply Forall_forall. intros i Hii. apply Hs. unfold free_numbers. rewrite !in_app_iff. right. left. apply in_flat_map. eauto. }
  assert (map (guideline_xml L) (g_guidelines g') = map (guideline_xml L) (g_guidelines g)) as Eg.
  { eapply Forall2_maps; [exact Sg|]. intros c c' Hin X. apply guideline_again; [rewrite Forall_forall in Hg; auto| |exact X]. apply Forall_forall. intros i Hii. apply Hs. unfold free_numbers. rewrite !in_app_iff. left. apply in_flat_map. eauto. }
  assert (map (anchor_xml L) (g_anchors g') = map (anchor_xml L) (g_anchors g)) as Ea.
  { eapply Forall2_maps; [exact R4|]. intros a a' _ (X1 & X2 & X3 & _). unfold anchor_xml. now rewrite X1, X2, X3. }
  assert (flat_map (image_nodes L) (g_images g') = flat_map (image_nodes L) (g_images g)) as Ei.
  { rewrite P2. eapply images_again; [exact Hi| |exact P2|exact Si]. intros i Hin. apply Forall_forall. intros j Hj. apply Hs. unfold free_numbers. rewrite !in_app_iff. right. right. apply in_flat_map. eauto. }
  pose proof (contours_again _ _ Ho R10) as HC.
  assert (Forall (contour_ok L) (contours g')) as Ho'.
  { clear -Ho R10. induction R10 as [|x y l l' R _ IHF]; [constructor|]. inversion_clear Ho. constructor; [eapply restored_ok; eassumption|auto]. }
  destruct (contours_restored L HL dbg _ Ho') as (ces' & _ & _ & C' & _).
  assert (glif_xml L P dbg g' = Ok e <-> forall c, In c (contours g) -> ~ wandering c) as X.
  { rewrite <- HC. rewrite <- He. split.
    - intros E. rewrite He in E. destruct (glif_xml_parts g' e E) as (ces1 & ims1 & Q1 & _ & _ & _ & Q5 & _). rewrite Q1, P1. now rewrite <- Q5, <- P5.
    - intros E. rewrite !glif_xml_children, E, Ea, Eg, Ei, Ek, R1, R2, R3, R8, (lib_again _ _ R9). reflexivity. }
  assert (exists e', glif_xml L P dbg g' = Ok e') as (e' & E').
  { rewrite glif_xml_children, C'. cbn [bind]. eauto. }
  exists e'. split; [exact E'|]. rewrite <- X, E'. split; [congruence|intros Y; now injection Y].
Qed.

(** The numbers read back. *)
Lemma read_again i j : settled L i -> iof_read L (iof_show L i) = Some j -> iof_show L j = iof_show L i /\ settled L j /\ legible L j.
Proof.
  intros S R. pose proof (S j R) as E. split; [exact E|]. split.
  - unfold settled in *. rewrite E. exact S.
  - exists j. split; [now rewrite E|]. now destruct j.
Qed.
Lemma matrix_reads one zero e m m' : matrix_says L one zero e m' ->
  get e "xScale" = Some (iof_show L (m_xScale m)) -> get e "xyScale" = Some (iof_show L (m_xyScale m)) ->
  get e "yxScale" = Some (iof_show L (m_yxScale m)) -> get e "yScale" = Some (iof_show L (m_yScale m)) ->
  get e "xOffset" = Some (iof_show L (m_xOffset m)) -> get e "yOffset" = Some (iof_show L (m_yOffset m)) ->
  Forall (settled L) (members m) -> Forall (fun j => settled L j /\ legible L j) (members m').
Proof.
  intros (H1 & H2 & H3 & H4 & H5 & H6) E1 E2 E3 E4 E5 E6 Hs. rewrite Forall_forall in Hs.
  assert (forall d k i j, get e k = Some (iof_show L i) -> number_or L d e k j -> In i (members m) -> settled L j /\ legible L j) as R.
  { intros d k i j E [[X _]|(t & X & Y)] Hi; rewrite E in X; [discriminate|]. injection X as <-. now apply (read_again i j (Hs i Hi)). }
  unfold members in *.
  assert (forall a b c d f g : iof, (settled L a /\ legible L a) -> (settled L b /\ legible L b) -> (settled L c /\ legible L c) -> (settled L d /\ legible L d) -> (settled L f /\ legible L f) -> (settled L g /\ legible L g) ->
    Forall (fun j => settled L j /\ legible L j) [a; b; c; d; f; g]) as K by (intros; repeat (apply Forall_cons; [assumption|]); constructor).
  apply K; [eapply R; [exact E1|exact H1|]|eapply R; [exact E2|exact H2|]|eapply R; [exact E3|exact H3|]|eapply R; [exact E4|exact H4|]|eapply R; [exact E5|exact H5|]|eapply R; [exact E6|exact H6|]]; cbn; tauto.
Qed.

Lemma color_reads c c' : (forall i, In i [cr c; cg c; cb c; ca c] -> settled L i /\ legible L i /\ ~ In comma (iof_show L i)) ->
  color_parse L (color_show L c) = Ok c' -> forall j, In j [cr c'; cg c'; cb c'; ca c'] -> settled L j /\ legible L j /\ ~ In comma (iof_show L j).
Proof.
  intros H E. destruct (color_round_trip_by L (fun j i => settled L j /\ legible L j /\ ~ In comma (iof_show L j)) c) as (c2 & E2 & F).
  { intros i Hi. destruct (H i Hi) as (S & (j & J1 & _) & N). split; [|exact N]. exists j. split; [exact J1|]. destruct (read_again i j S J1) as (A & B & C). rewrite A. auto. }
  rewrite E in E2. injection E2 as <-. inversion_clear F as [|? ? ? ? F1 F0]. inversion_clear F0 as [|? ? ? ? F2 F1']. inversion_clear F1' as [|? ? ? ? F3 F2']. inversion_clear F2' as [|? ? ? ? F4 _].
  intros j [<-|[<-|[<-|[<-|[]]]]]; assumption.
Qed.

Lemma component_reads c c' : Forall (settled L) (members (c_matrix c)) -> component_says L (component_xml L c) c' ->
  Forall (fun j => settled L j /\ legible L j) (members (c_matrix c')).
Proof.
  intros Hs (_ & H2 & _). eapply matrix_reads; [exact H2| | | | | | |exact Hs]; unfold component_xml, write_matrix; attrs; reflexivity.
Qed.
Lemma images_read : forall imgs ims imgs', Forall (image_ok L) imgs -> (forall i, In i imgs -> Forall (settled L) (members (i_matrix i))) ->
  flat_map (image_nodes L) imgs = map NElem ims -> Forall2 (image_says L) ims imgs' ->
  Forall (fun i => (forall s, i_filename i <> NotUtf8 s) /\ Forall (fun j => settled L j /\ legible L j) (members (i_matrix i))) imgs'.
Proof.
  induction imgs as [|i imgs IH]; intros ims imgs' Hok Hs E F.
  - destruct ims; [|discriminate]. inversion F. constructor.
  - inversion_clear Hok as [|? ? Hi Hr]. destruct (image_xml_restored L i Hi) as (e & _ & Ee & _). cbn [flat_map] in E. unfold image_nodes at 1 in E. rewrite Ee in E. cbn [app] in E.
    destruct ims as [|e0 ims]; [discriminate|]. cbn [map] in E. injection E as <- E. inversion F as [|? i' ? imgs1 Fi Fr]; subst. constructor.
    2:{ apply (IH ims); try assumption. intros x Hx. apply Hs. now right. }
    destruct Fi as ((f & _ & F1) & F2 & _). split; [intros f'; rewrite F1; discriminate|].
    unfold image_try_xml in Ee. destruct (i_filename i) as [f0|]; [|discriminate].
    assert (e = write_matrix L (i_identifier i) (i_matrix i) (insert "fileName" f0 (new_element "image"))) as -> by (now injection Ee).
    eapply matrix_reads; [exact F2| | | | | | |exact (Hs i (or_introl eq_refl))]; unfold write_matrix; attrs; reflexivity.
Qed.
Lemma guideline_reads (l l' : guideline PD) : guideline_ok L l -> Forall (settled L) (gl_angle l :: numbers_of_color (gl_color l)) ->
  guideline_says L pd0 (guideline_xml L l) l' -> guideline_ok L l' /\ Forall (settled L) (gl_angle l' :: numbers_of_color (gl_color l')).
Proof.
  intros (Kx & Ky & _ & Kc) Hs ((sx & X1 & X2) & (sy & Y1 & Y2) & (sa & A1 & A2) & _ & Hc & _ & _).
  revert X1 Y1 A1 Hc. unfold guideline_xml. unfold color_says. attrs. intros [= <-] [= <-] [= <-] Hc. inversion_clear Hs as [|? ? Sa Sc].
  unfold legible_f32 in *. assert (gl_x l' = gl_x l) as Ex by congruence. assert (gl_y l' = gl_y l) as Ey by congruence.
  destruct (read_again _ _ Sa A2) as (_ & Sa' & La').
  assert (forall c', gl_color l' = Some c' -> forall j, In j [cr c'; cg c'; cb c'; ca c'] -> settled L j /\ legible L j /\ ~ In comma (iof_show L j)) as HC.
  { intros c' Ec'. rewrite Ec' in Hc. destruct Hc as (t & Ht & T). destruct (gl_color l) as [c|]; [|discriminate]. cbn [option_map] in Ht. injection Ht as <-. apply color_text_parse in T.
    apply (color_reads c c'); [|exact T]. intros i Hi'. destruct (Kc c eq_refl i Hi'). rewrite Forall_forall in Sc. split; [now apply Sc|]. split; assumption. }
  split.
  - unfold guideline_ok, legible_f32. rewrite Ex, Ey. split; [exact Kx|]. split; [exact Ky|]. split; [exact La'|]. intros c' Ec' i Hi. destruct (HC c' Ec' i Hi) as (_ & H). exact H.
  - constructor; [exact Sa'|]. apply Forall_forall. intros i Hi. unfold numbers_of_color in Hi. destruct (gl_color l') as [c'|]; [|destruct Hi]. now apply (HC c' eq_refl).
Qed.

Lemma glyph_read_again g e g' : glyph_ok L P g -> (forall i, In i (free_numbers g) -> settled L i) ->
  glif_xml L P dbg g = Ok e -> read_element L pd0 P pedantry_default e = Ok g' ->
  glyph_ok L P g' /\ (forall i, In i (free_numbers g') -> settled L i) /\ Forall2 contour_restored (contours g) (contours g').
Proof.
  intros Hok Hs He Hr. pose proof Hok as (Hw & Hu & Ha & Hg & Hc & Hi & Hl & Ho).
  destruct (glyph_xml_restored L pd0 P HL dbg pedantry_default g Hok eq_refl eq_refl) as (e0 & g0 & E1 & E2 & HR & _).
  rewrite He in E1. injection E1 as <-. rewrite Hr in E2. injection E2 as <-.
  destruct HR as (R1 & R2 & R3 & R4 & _ & _ & _ & R8 & R9 & R10).
  destruct (glif_xml_parts g e He) as (ces & ims & P1 & P2 & P3 & P4 & P5 & P6).
  apply read_element_says in Hr. destruct Hr as (_ & _ & _ & _ & _ & _ & Si & Sg & _ & _ & _ & _ & _ & gcs & o & So & _ & _).
  rewrite P4 in Si. rewrite P3 in Sg.
  assert (Forall2 (component_says L) (components_in e) (cs_vec (g_components g'))) as Sk.
  { unfold components_in. unfold outline_says in So. destruct (named "outline" e); [destruct So as [_ ->]; constructor|]. destruct So as (? & _ & _ & X). exact X. }
  rewrite P6 in Sk. apply (proj1 (Forall2_map_l _ _ _ _)) in Sk. apply (proj1 (Forall2_map_l _ _ _ _)) in Sg.
  unfold free_numbers in Hs. setoid_rewrite in_app_iff in Hs. setoid_rewrite in_app_iff in Hs. setoid_rewrite in_flat_map in Hs.
  assert (forall k, In k (cs_vec (g_components g')) -> Forall (fun j => settled L j /\ legible L j) (members (c_matrix k))) as Kk.
  { apply Forall_forall. eapply Forall2_right with (l := cs_vec (g_components g)); [|].
    - intros x y X. exact X.
    - assert (forall k, In k (cs_vec (g_components g)) -> Forall (settled L) (members (c_matrix k))) as B by (intros k Hk; apply Forall_forall; intros i Hii; apply Hs; right; left; eauto).
      clear -Sk B. induction Sk as [|x y l l' H _ IH]; constructor; [apply (component_reads x y); [apply B; now left|exact H]|]. apply IH. intros k Hk. apply B. now right. }
  assert (forall l, In l (g_guidelines g') -> guideline_ok L l /\ Forall (settled L) (gl_angle l :: numbers_of_color (gl_color l))) as Kg.
  { apply Forall_forall. eapply Forall2_right with (l := g_guidelines g).
    - intros x y X. exact X.
    - assert (forall l, In l (g_guidelines g) -> guideline_ok L l /\ Forall (settled L) (gl_angle l :: numbers_of_color (gl_color l))) as B.
      { intros l Hl'. split; [rewrite Forall_forall in Hg; auto|]. apply Forall_forall. intros i Hii. apply Hs. left. eauto. }
      clear -Sg B. induction Sg as [|x y l l' H _ IH]; constructor; [destruct (B x (or_introl eq_refl)); now apply (guideline_reads x y)|]. apply IH. intros k Hk. apply B. now right. }
  assert (Forall (fun i => (forall s, i_filename i <> NotUtf8 s) /\ Forall (fun j => settled L j /\ legible L j) (members (i_matrix i))) (g_images g')) as Ki.
  { eapply images_read; [exact Hi| |exact P2|exact Si]. intros i Hin. apply Forall_forall. intros j Hj. apply Hs. right. right. eauto. }
  rewrite Forall_forall in Ki. split; [|split; [|exact R10]].
  - split; [now rewrite R2|]. split; [now rewrite R3|]. split.
    { clear -Ha R4. induction R4 as [|a a' l l' (X1 & X2 & X3 & X4) _ IH]; [constructor|]. inversion_clear Ha as [|? ? H1 H2]. constructor; [|now apply IH].
      unfold anchor_ok in *. now rewrite X1, X2, X3, X4. }
    split; [apply Forall_forall; intros l Hin; now apply Kg|]. split.
    { apply Forall_forall. intros k Hk. unfold component_ok. eapply Forall_impl; [|exact (Kk k Hk)]. intros a X. apply X. }
    split. { apply Forall_forall. intros i Hin. destruct (Ki i Hin) as [A B]. split; [exact A|]. eapply Forall_impl; [|exact B]. intros a X. apply X. }
    split. { unfold lib_restored, lib_ok in *. destruct (g_lib g) as [|d|x], (g_lib g') as [|d'|x']; try tauto; [now subst|now rewrite <- R9]. }
    clear -Ho R10. induction R10 as [|x y l l' R _ IHF]; [constructor|]. inversion_clear Ho. constructor; [eapply restored_ok; eassumption|auto].
  - intros i. unfold free_numbers. rewrite !in_app_iff, !in_flat_map. intros [(l & H1 & H2)|[(k & H1 & H2)|(k & H1 & H2)]].
    + destruct (Kg l H1) as [_ F]. rewrite Forall_forall in F. now apply F.
    + pose proof (Kk k H1) as F. rewrite Forall_forall in F. now apply F.
    + destruct (Ki k H1) as [_ F]. rewrite Forall_forall in F. now apply F.
Qed.

(** How often the start still moves. *)
Fixpoint lead (ts : list ptype) : nat := match ts with Curve :: ts => S (lead ts) | _ => 0 end.
Definition dist (ts : list ptype) : nat := match ts with Curve :: _ => S (lead (rev ts)) | _ => 0 end.
Lemma lead_app ts us : (exists t, In t ts /\ t <> Curve) -> lead (ts ++ us) = lead ts.
Proof.
  induction ts as [|t ts IH]; intros (x & Hx & Ht); [destruct Hx|]. cbn [app lead]. destruct t; try reflexivity. f_equal. apply IH. destruct Hx as [<-|Hx]; [congruence|eauto].
Qed.
Lemma lead_length ts : (exists t, In t ts /\ t <> Curve) -> lead ts < length ts.
Proof.
  induction ts as [|t ts IH]; intros (x & Hx & Ht); [destruct Hx|]. cbn [lead length]. destruct t; try lia. destruct Hx as [<-|Hx]; [congruence|]. specialize (IH (ex_intro _ x (conj Hx Ht))). lia.
Qed.
Lemma dist_length ts : (exists t, In t ts /\ t <> Curve) -> dist ts <= length ts.
Proof.
  intros H. destruct ts as [|[]]; cbn [dist]; try (cbn; lia). rewrite <- rev_length. apply lead_length. destruct H as (x & Hx & Ht). exists x. split; [now apply in_rev in Hx|exact Ht].
Qed.
Lemma dist_earlier z m : (exists t, In t (m ++ [z]) /\ t <> Curve) -> dist (z :: m) <= lead (rev (m ++ [z])).
Proof.
  intros (x & Hx & Ht). rewrite rev_app_distr. cbn [rev app dist lead]. destruct z; try lia. apply le_n_S. cbn [rev].
  rewrite lead_app; [lia|]. exists x. split; [|exact Ht]. rewrite <- in_rev. apply in_app_iff in Hx as [Hx|[<-|[]]]; [exact Hx|congruence].
Qed.

Lemma straight_types (c : contour PD) : partly_straight c -> exists t, In t (map pptype c) /\ t <> Curve.
Proof. intros (p & Hp & Ht). exists (pptype p). split; [now apply in_map|exact Ht]. Qed.
Lemma types_straight (c : contour PD) : (exists t, In t (map pptype c) /\ t <> Curve) -> partly_straight c.
Proof. intros (t & Hp & Ht). apply in_map_iff in Hp as (p & <- & Hp). exists p. auto. Qed.

Lemma restored_dist (c c' : contour PD) : cubic_contour_form c -> contour_restored c c' -> partly_straight c ->
  partly_straight c' /\ dist (map pptype c') <= dist (map pptype c) - 1.
Proof.
  intros Hf Hr Hs. destruct (restored_from c c' Hf Hr) as (z & m & -> & _ & _ & _ & Hc). apply straight_types in Hs.
  destruct Hc as [(p & t & -> & Ep & -> & ->)|(p & t & -> & Ep & E)].
  - split; [apply types_straight; now rewrite restore_types|]. rewrite restore_types. cbn [map dist]. destruct (pptype p); (lia || congruence).
  - split.
    + apply types_straight. rewrite restore_types. destruct Hs as (x & Hx & Ht). exists x. split; [|exact Ht]. rewrite E, map_app in Hx. apply in_app_iff in Hx. cbn in *. tauto.
    + rewrite restore_types. rewrite E in Hs. rewrite map_app in Hs. pose proof (dist_earlier (pptype z) (map pptype m) Hs) as D.
      assert (dist (map pptype (p :: t)) = S (lead (rev (map pptype (p :: t))))) as -> by (cbn [map dist]; now rewrite Ep). rewrite E, map_app. cbn [map] in *. lia.
Qed.

(** Contours of curves only. *)
Definition calm (c : contour PD) : Prop := (forall p, In p c -> pptype p = Curve) /\ forall x y, In x c -> In y c -> looks x = looks y.
Lemma curves_only_dec (c : contour PD) : partly_straight c \/ forall p, In p c -> pptype p = Curve.
Proof.
  induction c as [|p c IH]; [right; intros p []|]. destruct (ptype_eqb_spec (pptype p) Curve) as [E|E].
  - destruct IH as [(x & H & Hx)|IH]; [left; exists x; cbn; auto|]. right. intros x [<-|H]; auto.
  - left. exists p. cbn. auto.
Qed.
Lemma not_wandering_calm (c : contour PD) : (forall p, In p c -> pptype p = Curve) -> ~ wandering c -> calm c.
Proof.
  intros Hc Hw. split; [exact Hc|]. intros x y Hx Hy. destruct (looks_dec x y) as [E|E]; [exact E|]. exfalso. apply Hw.
  destruct c as [|p t]; [destruct Hx|]. destruct (exists_last (l := p :: t)) as (m & q & E'); [discriminate|]. destruct m as [|p' m].
  - cbn in E'. injection E' as -> ->. destruct Hx as [<-|[]], Hy as [<-|[]]. congruence.
  - cbn in E'. injection E' as <- E'. exists p, m, q. rewrite E'. split; [reflexivity|]. split; [apply Hc; now left|]. split; [apply Hc; right; rewrite E'; apply in_app_iff; cbn; auto|].
    exists x, y. rewrite <- E'. auto.
Qed.
Lemma calm_not_wandering (c : contour PD) : calm c -> ~ wandering c.
Proof. intros [_ H] (p & m & q & _ & _ & _ & x & y & Hx & Hy & E). apply E. auto. Qed.
Lemma curves_restored (c c' : contour PD) : cubic_contour_form c -> contour_restored c c' -> (forall p, In p c -> pptype p = Curve) ->
  (forall p, In p c' -> pptype p = Curve) /\ (forall x', In x' c' -> exists x, In x c /\ looks x' = looks x) /\ (forall x, In x c -> exists x', In x' c' /\ looks x' = looks x).
Proof.
  intros Hf Hr Hc. destruct (restored_from c c' Hf Hr) as (z & m & -> & _ & _ & _ & HX).
  assert (forall x, In x (z :: m) <-> In x c) as HI.
  { intros x. destruct HX as [(p & t & -> & Ep & -> & ->)|(p & t & -> & Ep & ->)]; [reflexivity|]. rewrite in_app_iff. cbn. tauto. }
  assert (forall y y', In y (z :: m) -> In y' m \/ y' = z -> pptype (restored y y') = Curve /\ looks (restored y y') = looks y) as K.
  { intros y y' Hy Hy'. assert (pptype y = Curve) as E1 by (apply Hc, HI, Hy). assert (pptype y' = Curve) as E2 by (apply Hc, HI; destruct Hy' as [H| ->]; cbn; auto).
    unfold restored, looks, out_handle, in_handle, shown. cbn. rewrite E1, E2. cbn. split; [reflexivity|]. unfold spot. cbn. destruct (pa y), (pb y); reflexivity. }
  split; [|split].
  - intros x Hx. apply in_restore_next in Hx as (y & y' & Hy & -> & Hy'). now apply K.
  - intros x Hx. apply in_restore_next in Hx as (y & y' & Hy & -> & Hy'). exists y. split; [now apply HI|now apply K].
  - intros x Hx. apply HI in Hx. pose proof (in_restore_of z m z x Hx) as (y' & H1 & H2). exists (restored x y'). split; [exact H1|]. now apply K.
Qed.
Lemma calm_restored (c c' : contour PD) : cubic_contour_form c -> contour_restored c c' -> calm c -> calm c'.
Proof.
  intros Hf Hr [Hc Hl]. destruct (curves_restored c c' Hf Hr Hc) as (A & B & _). split; [exact A|]. intros x y Hx Hy. apply B in Hx as (x0 & Hx & ->). apply B in Hy as (y0 & Hy & ->). auto.
Qed.
Lemma wild_restored (c c' : contour PD) : cubic_contour_form c -> contour_restored c c' -> ~ partly_straight c -> wandering c -> ~ partly_straight c' /\ wandering c'.
Proof.
  intros Hf Hr Hs Hw. destruct (curves_only_dec c) as [H|Hc]; [contradiction|]. destruct (curves_restored c c' Hf Hr Hc) as (A & _ & B).
  split; [intros (p & Hp & E); apply E, A, Hp|]. destruct Hw as (_ & _ & _ & _ & _ & _ & x & y & Hx & Hy & E). apply B in Hx as (x' & Hx & Ex). apply B in Hy as (y' & Hy & Ey).
  assert (looks x' <> looks y') as E' by congruence.
  destruct c' as [|p t]; [destruct Hx|]. destruct (exists_last (l := p :: t)) as (m & q & E1); [discriminate|]. destruct m as [|p' m].
  - cbn in E1. injection E1 as -> ->. destruct Hx as [<-|[]], Hy as [<-|[]]. congruence.
  - cbn in E1. injection E1 as <- E1. exists p, m, q. rewrite E1. split; [reflexivity|]. split; [apply A; now left|]. split; [apply A; right; rewrite E1; apply in_app_iff; cbn; auto|].
    exists x', y'. rewrite <- E1. auto.
Qed.

Theorem glyph_settles n : forall g e, glyph_ok L P g -> (forall i, In i (free_numbers g) -> settled L i) ->
  (forall c, In c (contours g) -> (partly_straight c /\ dist (map pptype c) <= n) \/ calm c) -> glif_xml L P dbg g = Ok e ->
  exists k e', k <= n /\ saved_times (PD:=PD) L pd0 P dbg k e e' /\ saved_again (PD:=PD) L pd0 P dbg e' e'.
Proof.
  induction n as [|n IH]; intros g e Hok Hs Hc He;
  destruct (glyph_xml_restored L pd0 P HL dbg pedantry_default g Hok eq_refl eq_refl) as (e0 & g' & E1 & Hr & _); rewrite He in E1; injection E1 as <-;
  destruct (glyph_again g e g' Hok Hs He Hr) as (e1 & He1 & HX).
  - exists 0, e. split; [lia|]. split; [constructor|]. exists g'. split; [exact Hr|]. rewrite He1. f_equal. apply HX. intros c Hin Hw. destruct (Hc _ Hin) as [[_ D]|D].
    + destruct Hw as (p & m & q & -> & Hp & _). cbn [map dist] in D. rewrite Hp in D. lia.
    + exact (calm_not_wandering c D Hw).
  - destruct (glyph_read_again g e g' Hok Hs He Hr) as (Hok' & Hs' & F).
    destruct (IH g' e1 Hok' Hs') as (k & e2 & Hk & T & A); [|exact He1|].
    + pose proof Hok as (_ & _ & _ & _ & _ & _ & _ & Ho). clear -Ho F Hc. revert Ho Hc. induction F as [|c c' l l' Hr _ IH]; intros Ho Hc x Hx; [destruct Hx|].
      inversion_clear Ho as [|? ? H1 H2]. destruct Hx as [<-|Hx].
      * destruct (Hc c (or_introl eq_refl)) as [[S D]|D]; [|right; now apply (calm_restored c c' (proj1 H1) Hr)]. left. destruct (restored_dist c c' (proj1 H1) Hr S). split; [assumption|lia].
      * apply IH; [exact H2| |exact Hx]. intros y Hy. apply Hc. now right.
    + exists (S k), e2. split; [lia|]. split; [|exact A]. econstructor; [|exact T]. exists g'. auto.
Qed.
Theorem glyph_unsettled k : forall g e e', glyph_ok L P g -> (forall i, In i (free_numbers g) -> settled L i) ->
  (exists c, In c (contours g) /\ ~ partly_straight c /\ wandering c) -> glif_xml L P dbg g = Ok e ->
  saved_times (PD:=PD) L pd0 P dbg k e e' -> ~ saved_again (PD:=PD) L pd0 P dbg e' e'.
Proof.
  induction k as [|k IH]; intros g e e' Hok Hs (c & Hin & Hc & Hw) He T A.
  - inversion T; subst e'. destruct A as (g' & Hr & He'). destruct (glyph_again g e g' Hok Hs He Hr) as (e1 & He1 & HX). assert (e1 = e) as -> by congruence. destruct HX as [HX _]. exact (HX eq_refl c Hin Hw).
  - inversion T as [|k0 e0 e1 e2 (g' & Hr & He1) T' E1 E2 E3]. subst. destruct (glyph_read_again g e g' Hok Hs He Hr) as (Hok' & Hs' & F). apply (IH g' e1 e' Hok' Hs'); try assumption.
    pose proof Hok as (_ & _ & _ & _ & _ & _ & _ & Ho). clear -Ho F Hin Hc Hw. induction F as [|x y l l' Hr _ IH]; [destruct Hin|]. inversion_clear Ho as [|? ? H1 H2]. destruct Hin as [->|Hin].
    + exists y. split; [now left|]. eapply wild_restored; [exact (proj1 H1)|exact Hr|exact Hc|exact Hw].
    + destruct (IH Hin H2) as (y' & Hy & X). exists y'. split; [now right|exact X].
Qed.

Lemma saved_again_unique e e1 e2 : saved_again (PD:=PD) L pd0 P dbg e e1 -> saved_again (PD:=PD) L pd0 P dbg e e2 -> e1 = e2.
Proof. intros (g & H1 & H2) (g' & H3 & H4). congruence. Qed.
Lemma saved_forever e k e' : saved_again (PD:=PD) L pd0 P dbg e e -> saved_times (PD:=PD) L pd0 P dbg k e e' -> e' = e.
Proof. intros A T. induction T as [|k e e1 e2 S _ IH]; [reflexivity|]. rewrite <- (saved_again_unique _ _ _ A S) in IH. auto. Qed.

(** Where a glyph was found is not written. *)
Lemma found_written fn g0 g : found_in fn g0 g -> glif_xml L P dbg g = glif_xml L P dbg g0.
Proof.
  intros (_ & F & _ & _ & Eo & Ea & Eg & Ei & Ew & Eu & En & Et & El). rewrite !glif_xml_children. unfold contours. rewrite Eo, Ea, Eg, Ei, Ew, Eu, En, Et, El.
  assert (map (component_xml L) (cs_vec (g_components g)) = map (component_xml L) (cs_vec (g_components g0))) as ->; [|reflexivity].
  eapply Forall2_maps; [exact F|]. intros c0 c _ (X1 & X2 & X3 & _). unfold component_xml. now rewrite X1, X2, X3.
Qed.
End Glyphs.

(** ** The numbers of the standard library *)
Lemma parse_i32_no_point t z : parse_i32 t = Some z -> ~ In 46%N t.
Proof.
  intros H Hin. assert (forall s, In 46%N s -> forall a v, digits_val 10 s a <> Some v) as D.
  { intros s Hs a v X. pose proof (digits_val_is_digits s a v X _ Hs) as Y. discriminate. }
  assert (forall maxv s, In 46%N s -> parse_uint 10 maxv s = None) as U.
  { intros maxv s Hs. unfold parse_uint. cbv zeta. match goal with |- match ?b with _ => _ end = _ => set (body := b) end.
    assert (In 46%N body) as Hb.
    { subst body. destruct s as [|c s]; [exact Hs|]. destruct Hs as [->|Hs]; [now left|]. destruct c as [|p]; [now right|]. do 6 (destruct p as [p|p|]; try (now right); try exact Hs). }
    clearbody body. destruct body as [|c body]; [reflexivity|]. destruct (digits_val 10 (c :: body) 0) as [v|] eqn:X; [|reflexivity]. now apply D in X. }
  destruct t as [|c t]; [destruct Hin|]. destruct (N.eq_dec c 45) as [->|Hc].
  - destruct Hin as [X|Hin]; [discriminate|]. unfold parse_i32 in H. destruct t as [|c t]; [destruct Hin|]. destruct (digits_val 10 (c :: t) 0) as [v|] eqn:X; [|discriminate]. now apply D in X.
  - assert (parse_i32 (c :: t) = match parse_uint 10 2147483647 (c :: t) with Some v => Some (Z.of_N v) | None => None end) as E.
    { unfold parse_i32. destruct c as [|p]; [reflexivity|]. do 6 (destruct p as [p|p|]; try reflexivity; try congruence). }
    rewrite E, U in H by assumption. discriminate.
Qed.

Lemma show_scaled_whole M : show_scaled M 0 = show_dec M.
Proof.
  unfold show_scaled, pad_left. pose proof (show_uint_nonempty 10 M) as H. change (show_uint 10 M) with (show_dec M) in H.
  destruct (show_dec M) as [|c t]; [congruence|]. reflexivity.
Qed.
Lemma show_scaled_point M k : In 46%N (show_scaled M (S k)).
Proof. unfold show_scaled. apply in_app_iff. right. now left. Qed.
Lemma show_abs_scaled s m e : exists M k, show_abs s m e = show_scaled M k.
Proof. unfold show_abs. destruct (exact_decimal m e) as [M0 k0]. destruct (find _ _) as [n|]; [destruct (round_decimal n (M0, k0))|]; eauto. Qed.

Lemma rust_settled i : iof_ok i -> settled rust_num i.
Proof.
  intros Hi j. cbn [rust_num iof_show iof_read]. destruct i as [z|f].
  - rewrite rust_iof_round_trip_int by exact Hi. now intros [= <-].
  - destruct Hi as [Hv Hz]. pose proof (rust_iof_round_trip f Hv Hz) as RT. intros H.
    unfold rust_iof_read in H. cbn [rust_iof_show] in *. destruct (parse_i32 (rust_f32_show f)) as [z|] eqn:Ep.
    2:{ rewrite rust_f32_round_trip in H by exact Hv. cbn [option_map] in H. now injection H as <-. }
    injection H as <-. change (option_map f32_of_iof (rust_iof_read (rust_f32_show f)) = Some f) in RT. unfold rust_iof_read in RT. rewrite Ep in RT. cbn [option_map] in RT. injection RT as RT.
    cbn [rust_iof_show]. destruct f as [s|s| |s m e].
    + destruct s; [congruence|]. vm_compute in Ep. injection Ep as <-. reflexivity.
    + destruct s; vm_compute in Ep; discriminate.
    + vm_compute in Ep. discriminate.
    + cbn [rust_f32_show] in *. destruct (show_abs_scaled s m e) as (M & k & E). rewrite E in *. destruct k as [|k].
      2:{ exfalso. apply (parse_i32_no_point _ _ Ep). apply in_app_iff. right. apply show_scaled_point. }
      rewrite show_scaled_whole in *. pose proof (show_dec_chars M) as Hch. pose proof (show_uint_val 10 M ltac:(lia) ltac:(lia)) as Hval. change (show_uint 10 M) with (show_dec M) in Hval.
      pose proof (show_uint_nonempty 10 M) as Hne. change (show_uint 10 M) with (show_dec M) in Hne.
      destruct (show_dec M) as [|c t] eqn:Ed; [congruence|]. destruct s; cbn [app] in *.
      * unfold parse_i32 in Ep. rewrite Hval in Ep. destruct (M <=? 2147483648)%N; [|discriminate]. injection Ep as <-.
        destruct M as [|p]; [cbn in RT; discriminate|]. cbn [Z.of_N Z.opp show_int]. now rewrite Ed.
      * assert (48 <= c <= 57)%N as Hc by (apply Hch; now left).
        assert (parse_i32 (c :: t) = match parse_uint 10 2147483647 (c :: t) with Some v => Some (Z.of_N v) | None => None end) as X.
        { unfold parse_i32. destruct c as [|p]; [reflexivity|]. do 6 (destruct p as [p|p|]; try reflexivity; try lia). }
        assert (parse_uint 10 2147483647 (c :: t) = if (M <=? 2147483647)%N then Some M else None) as Y.
        { unfold parse_uint. clear -Hc Hval. destruct c as [|p]; [lia|]. do 6 (destruct p as [p|p|]; try (now rewrite Hval); try lia). }
        rewrite X, Y in Ep. destruct (M <=? 2147483647)%N; [|discriminate]. injection Ep as <-.
        destruct M as [|p]; cbn [Z.of_N show_int Z.to_N]; exact Ed.
Qed.

(** The numbers of an opened glyph. *)
Lemma Forall2_in_r {A B} (R : A -> B -> Prop) l l' : Forall2 R l l' -> forall y, In y l' -> exists x, In x l /\ R x y.
Proof. induction 1 as [|x y l l' H _ IH]; intros z Hz; [destruct Hz|]. destruct Hz as [<-|Hz]; [exists x; cbn; auto|]. destruct (IH z Hz) as (w & H1 & H2). exists w. cbn. auto. Qed.
Lemma opened_proper {PD PL} (pd0 : PD) (P : plistlib PL) ped root (g : glif PD PL) : read_element rust_num pd0 P ped root = Ok g ->
  forall i, In i (free_numbers g) -> proper i.
Proof.
  intros H i Hi.
  apply read_element_says in H. destruct H as (_ & _ & _ & _ & _ & _ & Si & Sg & _ & _ & _ & _ & _ & gcs & o & So & _ & _).
  assert (Forall2 (component_says rust_num) (components_in root) (cs_vec (g_components g))) as Sk.
  { unfold components_in. unfold outline_says in So. destruct (named "outline" root); [destruct So as [_ ->]; constructor|]. destruct So as (? & _ & _ & X). exact X. }
  unfold free_numbers in Hi. rewrite !in_app_iff, !in_flat_map in Hi. destruct Hi as [(l & H1 & H2)|[(k & H1 & H2)|(k & H1 & H2)]].
  - destruct (Forall2_in_r _ _ _ Sg l H1) as (e & _ & (_ & _ & Xa & _ & Xc & _)). destruct H2 as [<-|H2]; [eapply number_at_proper; exact Xa|].
    unfold numbers_of_color in H2. destruct (gl_color l) as [c|]; [|destruct H2]. apply color_proper in Xc as X. rewrite Forall_forall in X. now apply X.
  - destruct (Forall2_in_r _ _ _ Sk k H1) as (e & _ & (_ & X & _)). apply matrix_proper in X; [|reflexivity|cbn; lia]. rewrite Forall_forall in X. now apply X.
  - destruct (Forall2_in_r _ _ _ Si k H1) as (e & _ & (_ & X & _)). apply matrix_proper in X; [|cbn; lia|cbn; lia]. rewrite Forall_forall in X. now apply X.
Qed.
Lemma opened_numbers {PD PL} (pd0 : PD) (P : plistlib PL) ped root (g : glif PD PL) : read_element rust_num pd0 P ped root = Ok g -> no_minus_zero g ->
  forall i, In i (free_numbers g) -> iof_ok i.
Proof.
  intros H Hz i Hi. assert (i <> IFloat (S754_zero true)) as N.
  { intros ->. apply Hz. unfold numbers. unfold free_numbers in Hi. rewrite !in_app_iff in *. tauto. }
  apply proper_ok; [|exact N]. eapply opened_proper; eassumption.
Qed.
