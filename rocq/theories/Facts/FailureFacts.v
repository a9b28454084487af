(** Readers follow their checks. *)
Require Import Coq.Strings.String Coq.Lists.List Coq.NArith.NArith Coq.ZArith.ZArith Coq.Bool.Bool Coq.micromega.Lia.
Require Import Verif.Model.Base Verif.Model.Text Verif.Model.Float Verif.Model.Num Verif.Model.Point Verif.Model.Contour
  Verif.Model.Create Verif.Model.Strings Verif.Model.Names Verif.Model.Pedantry Verif.Model.Color Verif.Model.Xml Verif.Model.Parts
  Verif.Model.Read
  Verif.Spec.TextSpec Verif.Spec.GlyphSpec Verif.Spec.DocumentSpec Verif.Spec.FailureSpec
  Verif.Facts.TextFacts Verif.Facts.DigitFacts Verif.Facts.ColorFacts
  Verif.Facts.CreateFacts Verif.Facts.XmlFacts Verif.Facts.GlyphFacts Verif.Facts.DocumentFacts.
Import ListNotations.
Local Open Scope nat_scope.

(** The outcome is the first failure, or a value if all checks pass. *)
Definition follows {A} (r : res A) (cs : list check) : Prop :=
  (forall e, r = Err e <-> first_failure cs e) /\ ((exists v, r = Ok v) <-> Forall passes cs).

Lemma first_failure_app cs ds e :
  first_failure (cs ++ ds) e <-> first_failure cs e \/ Forall passes cs /\ first_failure ds e.
Proof.
  induction cs as [|c cs IH]; cbn [app].
  - split; [auto|]. intros [H|[_ H]]; [inversion H|assumption].
  - split.
    + intros H. inversion H as [? ? ? H1|? ? ? H1 H2]; subst; [left; now constructor|].
      apply IH in H2 as [H2|[H2 H3]]; [left; now apply fails_later|]. right. auto.
    + intros [H|[H1 H2]].
      * inversion H as [? ? ? H1|? ? ? H1 H2]; subst; [now constructor|]. apply fails_later; [assumption|]. apply IH. auto.
      * inversion H1; subst. apply fails_later; [assumption|]. apply IH. auto.
Qed.
Lemma follows_ok {A} (v : A) : follows (Ok v) [].
Proof. split; [intros e; split; [discriminate|intros H; inversion H]|]. split; [constructor|eauto]. Qed.
Lemma follows_bind {A B} (r : res A) (k : A -> res B) cs ds :
  follows r cs -> (forall v, r = Ok v -> follows (k v) ds) -> follows (bind r k) (cs ++ ds).
Proof.
  intros [H1 H2] Hk. split.
  - intros e. rewrite first_failure_app. destruct r as [v|x|]; cbn [bind].
    + destruct (Hk v eq_refl) as [K1 K2]. rewrite K1. split.
      * intros H. right. split; [apply H2; eauto|assumption].
      * intros [H|[_ H]]; [apply H1 in H; discriminate|assumption].
    + split; [intros [= <-]; left; now apply H1|]. intros [H|[H _]]; [apply H1 in H; congruence|].
      apply H2 in H as (v & H). discriminate.
    + split; [discriminate|]. intros [H|[H _]]; [apply H1 in H; discriminate|]. apply H2 in H as (v & H). discriminate.
  - rewrite Forall_app. destruct r as [v|x|]; cbn [bind].
    + destruct (Hk v eq_refl) as [K1 K2]. rewrite K2. split; [|intros [_ H]; exact H]. intros H. split; [apply H2; eauto|exact H].
    + split; [intros (v & H); discriminate|]. intros [H _]. apply H2 in H as (v & H). discriminate.
    + split; [intros (v & H); discriminate|]. intros [H _]. apply H2 in H as (v & H). discriminate.
Qed.
Lemma follows_cons {A B} (r : res A) (k : A -> res B) c ds :
  follows r [c] -> (forall v, r = Ok v -> follows (k v) ds) -> follows (bind r k) (c :: ds).
Proof. apply (follows_bind r k [c] ds). Qed.
Lemma follows_last {A B} (r : res A) (k : A -> res B) cs :
  follows r cs -> (forall v, exists w, k v = Ok w) -> follows (bind r k) cs.
Proof.
  intros H Hk. rewrite <- (app_nil_r cs). apply follows_bind; [assumption|]. intros v _. destruct (Hk v) as (w & ->). apply follows_ok.
Qed.
Lemma follows_mapM {A B} (f : A -> res B) (cs : A -> list check) l :
  (forall x, follows (f x) (cs x)) -> follows (mapM f l) (flat_map cs l).
Proof.
  intros H. induction l as [|x l IH]; cbn [mapM flat_map]; [apply follows_ok|].
  apply follows_bind; [apply H|]. intros v _. apply follows_last; [exact IH|]. eauto.
Qed.
(** A single check for an option. *)
Lemma follows_one {A} (r : res A) c : (forall e, r = Err e <-> fails c e) -> ((exists v, r = Ok v) <-> passes c) -> follows r [c].
Proof.
  intros H1 H2. split.
  - intros e. rewrite H1. split; [intros H; now constructor|]. intros H. inversion H as [|? ? ? _ H3]; [assumption|inversion H3].
  - rewrite H2. split; [intros H; now constructor|]. intros H. now inversion H.
Qed.

Section Read.
Context (L : numlib) {PD PL : Type} (pd0 : PD) (P : plistlib PL).

Lemma follows_present e k msg : follows (ok_or (get e k) (EInput msg)) [present e k msg].
Proof.
  apply follows_one; cbn [fails passes present]; destruct (get e k) as [s|]; cbn [ok_or].
  - intros x. split; [discriminate|intros [H _]; discriminate].
  - intros x. split; [intros [= <-]; auto|intros [_ ->]; reflexivity].
  - split; eauto.
  - split; intros (s & H); discriminate.
Qed.
Lemma follows_number e k msg s : get e k = Some s -> follows (ok_or (iof_read L s) (EInput msg)) [is_number L e k msg].
Proof.
  intros Hs. apply follows_one; cbn [fails passes is_number]; unfold number_at; rewrite Hs; destruct (iof_read L s) as [i|] eqn:E; cbn [ok_or].
  - intros x. split; [discriminate|intros [(s' & [= <-] & H) _]; congruence].
  - intros x. split; [intros [= <-]; eauto|intros [_ ->]; reflexivity].
  - split; eauto.
  - split; [intros (v & H); discriminate|intros (v & s' & [= <-] & H); congruence].
Qed.
Lemma follows_float e k msg s : get e k = Some s -> follows (ok_or (f32_read L s) (EInput msg)) [is_float L e k msg].
Proof.
  intros Hs. apply follows_one; cbn [fails passes is_float]; unfold float_at; rewrite Hs; destruct (f32_read L s) as [i|] eqn:E; cbn [ok_or].
  - intros x. split; [discriminate|intros [(s' & [= <-] & H) _]; congruence].
  - intros x. split; [intros [= <-]; eauto|intros [_ ->]; reflexivity].
  - split; eauto.
  - split; [intros (v & H); discriminate|intros (v & s' & [= <-] & H); congruence].
Qed.
Lemma follows_member e k msg d : follows (load_member L e k msg d) [number_if_present L e k msg].
Proof.
  unfold load_member. apply follows_one; cbn [fails passes number_if_present]; unfold number_at; destruct (get e k) as [s|];
    [destruct (iof_read L s) as [i|] eqn:E; cbn [ok_or]| |destruct (iof_read L s) as [i|] eqn:E; cbn [ok_or]|].
  - intros x. split; [discriminate|intros [(s' & [= <-] & H) _]; congruence].
  - intros x. split; [intros [= <-]; eauto|intros [_ ->]; reflexivity].
  - intros x. split; [discriminate|intros [(s' & H & _) _]; discriminate].
  - split; eauto.
  - split; [intros (v & H); discriminate|intros [H|(v & s' & [= <-] & H)]; congruence].
  - split; eauto.
Qed.
Lemma follows_matrix e m : follows (load_matrix L e m) (matrix_checks L e).
Proof.
  unfold load_matrix, matrix_checks. do 6 (apply follows_cons; [apply follows_member|intros ? _]). apply follows_ok.
Qed.
Lemma color_parse_err s : forall r, color_parse L s = r -> r = Err EColorNotRGBA \/ exists c, r = Ok c.
Proof.
  intros r <-. unfold color_parse, color_component. destruct (split_on 44 s) as [|a [|b [|c [|d l]]]]; auto.
  destruct (iof_read L a); cbn [ok_or bind]; auto. destruct (iof_read L b); cbn [ok_or bind]; auto.
  destruct (iof_read L c); cbn [ok_or bind]; auto. destruct (iof_read L d); cbn [ok_or bind]; eauto.
Qed.
Lemma follows_color e : follows (read_color L e) [color_check L e].
Proof.
  assert (read_color L e = Err EColorNotRGBA \/ exists o, read_color L e = Ok o) as H.
  { unfold read_color. destruct (get e "color") as [s|]; [|eauto]. destruct (color_parse_err s _ eq_refl) as [->|(c & ->)]; cbn [bind]; eauto. }
  apply follows_one; cbn [passes fails color_check].
  - intros x. split.
    + intros E. split; [|destruct H as [H|(o & H)]; congruence]. intros o Ho. apply read_color_says in Ho. congruence.
    + intros [H1 ->]. destruct H as [H|(o & H)]; [assumption|]. apply read_color_says in H. now apply H1 in H.
  - split; intros (o & Ho); exists o; now apply read_color_says.
Qed.

Lemma follows_point e : follows (read_point L e) (point_checks L e).
Proof.
  unfold read_point, point_checks.
  apply follows_cons; [apply follows_present|]. intros s1 H1. apply ok_or_ok in H1.
  apply follows_cons; [now apply follows_number|]. intros x Hx.
  apply follows_cons; [apply follows_present|]. intros s2 H2. apply ok_or_ok in H2.
  apply follows_cons; [now apply follows_number|]. intros y Hy.
  cbv zeta. rewrite ptype_of_str_valid. apply follows_ok.
Qed.
Lemma follows_component e : follows (read_component L e) (component_checks L e).
Proof.
  unfold read_component, component_checks. apply follows_bind; [apply follows_matrix|]. intros m _.
  apply follows_cons; [apply follows_present|]. intros b _. apply follows_ok.
Qed.
Lemma follows_image e : follows (read_image L e) (image_checks L e).
Proof.
  unfold read_image, image_checks. apply follows_cons; [apply follows_present|]. intros s _. cbv zeta.
  apply follows_bind; [apply follows_matrix|]. intros m _. apply follows_cons; [apply follows_color|]. intros c _. apply follows_ok.
Qed.
Lemma follows_guideline e : follows (read_guideline L pd0 e) (guideline_checks L e).
Proof.
  unfold read_guideline, guideline_checks.
  apply follows_cons; [apply follows_present|]. intros s1 H1. apply ok_or_ok in H1.
  apply follows_cons; [now apply follows_float|]. intros x Hx.
  apply follows_cons; [apply follows_present|]. intros s2 H2. apply ok_or_ok in H2.
  apply follows_cons; [now apply follows_float|]. intros y Hy.
  apply follows_cons; [apply follows_present|]. intros s3 H3. apply ok_or_ok in H3.
  apply follows_cons; [now apply follows_number|]. intros an Ha.
  apply follows_cons; [apply follows_color|]. intros c _. apply follows_ok.
Qed.
Lemma integer_at_holding e k s i : get e k = Some s -> iof_read L s = Some i -> integer_at L e k <-> holding_integer i = true.
Proof.
  intros Hs Hi. unfold integer_at, number_at. rewrite Hs. split.
  - intros (z & s' & [= <-] & H). rewrite Hi in H. injection H as ->. reflexivity.
  - destruct i as [z|f]; [|discriminate]. intros _. exists z, s. auto.
Qed.
Lemma follows_anchor ped e : follows (read_anchor L pd0 ped e) (anchor_checks L ped e).
Proof.
  unfold read_anchor, anchor_checks.
  apply follows_cons; [apply follows_present|]. intros s1 H1. apply ok_or_ok in H1.
  apply follows_cons; [now apply follows_number|]. intros x Hx. apply ok_or_ok in Hx.
  apply follows_cons; [apply follows_present|]. intros s2 H2. apply ok_or_ok in H2.
  apply follows_cons; [now apply follows_number|]. intros y Hy. apply ok_or_ok in Hy.
  cbv zeta. unfold anchor_from_glif. cbn [ga_x ga_y ga_class].
  pose proof (integer_at_holding _ _ _ _ H1 Hx) as Ix. pose proof (integer_at_holding _ _ _ _ H2 Hy) as Iy.
  apply follows_one; cbn [passes fails].
  - intros err. rewrite Ix, Iy. destruct (ped_mend ped) eqn:Em; cbn [negb andb]; destruct (holding_integer x), (holding_integer y); cbn [negb orb];
      split; intros H; try discriminate H; try (injection H as <-); try (destruct H as (Q & R & ->)); try reflexivity;
      try (exfalso; now auto); repeat split; try discriminate; intros [U V]; discriminate.
  - rewrite Ix, Iy. destruct (ped_mend ped) eqn:Em; cbn [negb andb]; destruct (holding_integer x), (holding_integer y); cbn [negb orb];
      split; intros H; try (destruct H as (v & H); discriminate H); eauto; destruct H as [H|[H H']]; discriminate.
Qed.
Lemma follows_unicode e : follows (read_unicode e) (unicode_checks e).
Proof.
  unfold read_unicode, unicode_checks.
  apply follows_cons; [apply follows_present|]. intros s Hs. apply ok_or_ok in Hs.
  assert (B : forall n, (n <= u32_max <-> n < 2 ^ 32)%N) by (intros n; change (2 ^ 32)%N with (N.succ u32_max); rewrite N.lt_succ_r; reflexivity).
  assert (B' : forall n, (u32_max < n <-> 2 ^ 32 <= n)%N) by (intros n; rewrite <- N.le_succ_l; reflexivity).
  apply follows_cons.
  - apply follows_one; cbn [passes fails]; rewrite Hs; unfold parse_hex_u32; destruct (parse_uint 16 u32_max s) as [n|] eqn:E; cbn [ok_or].
    + apply parse_uint_iff in E as [E1 E2]; [|lia]. intros x. split; [discriminate|]. intros [(s' & [= <-] & H) _]. apply H in E1. apply B' in E1. lia.
    + rewrite parse_uint_none in E by lia. intros x. split; [intros [= <-]|intros [_ ->]; reflexivity]. split; [|reflexivity].
      exists s. split; [reflexivity|]. intros n Hn. apply B'. auto.
    + apply parse_uint_iff in E as [E1 E2]; [|lia]. split; [|eauto]. intros _. exists s, n. split; [reflexivity|]. split; [assumption|]. now apply B.
    + rewrite parse_uint_none in E by lia. split; [intros (v & H); discriminate|]. intros (s' & n & [= <-] & H1 & H2). apply E in H1. apply B in H2. lia.
  - intros n Hn. apply ok_or_ok in Hn. unfold parse_hex_u32 in Hn. apply parse_uint_iff in Hn as [H1 H2]; [|lia].
    unfold char_from_u32. apply follows_one; cbn [passes fails]; rewrite Hs; destruct (is_scalar n) eqn:E; cbn [ok_or].
    + apply scalar_is in E. intros x. split; [discriminate|]. intros [(s' & m & [= <-] & H3 & _ & H4) _].
      rewrite (unsigned_text_unique 16 s n m) in E; [contradiction|lia|assumption|assumption].
    + intros x. split; [intros [= <-]|intros [_ ->]; reflexivity]. split; [|reflexivity]. exists s, n. split; [reflexivity|]. split; [assumption|].
      split; [now apply B|]. intros H. apply scalar_is in H. congruence.
    + apply scalar_is in E. split; [|eauto]. intros _. exists s, n. auto.
    + split; [intros (v & H); discriminate|]. intros (s' & m & [= <-] & H3 & H4).
      rewrite (unsigned_text_unique 16 s m n) in H4; [|lia|assumption|assumption]. apply scalar_is in H4. congruence.
Qed.
Lemma whole_width_parse s : whole_width s <-> exists n, parse_u64 s = Some n.
Proof.
  unfold whole_width, parse_u64. change (2 ^ 64)%N with (N.succ u64_max). split.
  - intros (n & H1 & H2). exists n. apply parse_uint_iff; [lia|]. apply N.lt_succ_r in H2. auto.
  - intros (n & H). apply parse_uint_iff in H as [H1 H2]; [|lia]. exists n. rewrite N.lt_succ_r. auto.
Qed.
Lemma follows_advance ped e : follows (read_advance L ped e) (advance_checks L ped e).
Proof.
  unfold read_advance, advance_checks.
  apply follows_cons; [apply follows_present|]. intros s Hs. apply ok_or_ok in Hs.
  pose proof (whole_width_parse s) as W. pose proof (strict_mend ped) as SM.
  assert (U : usable_float L s <-> exists f, f32_read L s = Some f /\ is_subnormal f = false) by reflexivity.
  destruct (parse_u64 s) as [n|] eqn:E.
  - assert (whole_width s) as H by (apply W; eauto). clear W U. split.
    + intros x. split; [discriminate|]. intros X. inversion X as [? ? ? Y|? ? ? _ Y]; subst; cbn in Y.
      * destruct Y as [(s' & Y1 & Y2 & _) _]. rewrite Hs in Y1. injection Y1 as <-. contradiction.
      * inversion Y as [? ? ? Z|? ? ? _ Z]; subst; [|inversion Z]. destruct Z as [(s' & Z1 & Z2 & _) _]. rewrite Hs in Z1. injection Z1 as <-. contradiction.
    + split; [|eauto]. intros _. constructor; [|constructor; [|constructor]]; cbn; exists s; auto.
  - assert (~ whole_width s) as N by (intros H; apply W in H as (n & H); discriminate). clear W.
    destruct (f32_read L s) as [f|] eqn:Ef; [destruct (is_subnormal f) eqn:Es|].
    + assert (~ usable_float L s) as NU by (intros H; apply U in H as (f' & [= <-] & H); congruence).
      split.
      * intros x. split; [intros [= <-]; apply fails_here; cbn; eauto 8|]. intros X. inversion X as [? ? ? Y|? ? ? Y _]; subst; cbn in Y; [destruct Y as [_ ->]; reflexivity|].
        destruct Y as (s' & Y1 & Y2). rewrite Hs in Y1. injection Y1 as <-. tauto.
      * split; [intros (v & H); discriminate|]. intros X. inversion X as [|? ? Y _]; subst; cbn in Y. destruct Y as (s' & Y1 & Y2). rewrite Hs in Y1. injection Y1 as <-. tauto.
    + assert (usable_float L s) as HU by (apply U; eauto). destruct (should_mend ped); cbn [negb].
      * assert (~ strict ped) as NS by (rewrite SM; discriminate). split.
        -- intros x. split; [discriminate|]. intros X. inversion X as [? ? ? Y|? ? ? _ Y]; subst; cbn in Y.
           ++ destruct Y as [(s' & Y1 & Y2 & Y3) _]. rewrite Hs in Y1. injection Y1 as <-. contradiction.
           ++ inversion Y as [? ? ? Z|? ? ? _ Z]; subst; [|inversion Z]. destruct Z as [(s' & Z1 & Z2 & Z3) _]. contradiction.
        -- split; [|eauto]. intros _. constructor; [|constructor; [|constructor]]; cbn; exists s; auto.
      * assert (strict ped) as HS by (apply SM; reflexivity). split.
        -- intros x. split.
           ++ intros [= <-]. apply fails_later; [cbn; eauto|]. apply fails_here. cbn. eauto 8.
           ++ intros X. inversion X as [? ? ? Y|? ? ? _ Y]; subst; cbn in Y.
              ** destruct Y as [(s' & Y1 & Y2 & Y3) _]. rewrite Hs in Y1. injection Y1 as <-. contradiction.
              ** inversion Y as [? ? ? Z|? ? ? _ Z]; subst; [|inversion Z]. destruct Z as [_ ->]. reflexivity.
        -- split; [intros (v & H); discriminate|]. intros X. inversion X as [|? ? _ Y]; subst. inversion Y as [|? ? Z _]; subst. cbn in Z.
           destruct Z as (s' & Z1 & Z2). rewrite Hs in Z1. injection Z1 as <-. tauto.
    + assert (~ usable_float L s) as NU by (intros H; apply U in H as (f' & H & _); discriminate).
      split.
      * intros x. split; [intros [= <-]; apply fails_here; cbn; eauto 8|]. intros X. inversion X as [? ? ? Y|? ? ? Y _]; subst; cbn in Y; [destruct Y as [_ ->]; reflexivity|].
        destruct Y as (s' & Y1 & Y2). rewrite Hs in Y1. injection Y1 as <-. tauto.
      * split; [intros (v & H); discriminate|]. intros X. inversion X as [|? ? Y _]; subst; cbn in Y. destruct Y as (s' & Y1 & Y2). rewrite Hs in Y1. injection Y1 as <-. tauto.
Qed.
Lemma follows_outline o : follows (outline_by_kind L (hd_error o)) (flat_map (outline_checks L) (firstn 1 o)).
Proof.
  destruct o as [|e o]; cbn [hd_error firstn flat_map outline_by_kind]; [apply follows_ok|]. rewrite app_nil_r. unfold outline_checks.
  apply follows_bind; [apply follows_mapM; intros c; apply follows_mapM; apply follows_point|]. intros cs _.
  apply follows_last; [apply follows_mapM, follows_component|]. eauto.
Qed.

Ltac np := repeat first [match goal with |- bind _ _ <> Panic => apply bind_no_panic; [|intros] end|apply ok_or_no_panic|discriminate].
(** Everything but the conversion of the contours, which has no errors of its own. *)
Lemma read_element_fails ped root :
  (forall e, read_element L pd0 P ped root = Err e <-> first_failure (document_checks L ped root) e) /\
  (forall g, read_element L pd0 P ped root = Ok g -> Forall passes (document_checks L ped root)) /\
  (Forall passes (document_checks L ped root) -> forall e, read_element L pd0 P ped root <> Err e) /\
  (read_element L pd0 P ped root = Panic -> Forall passes (document_checks L ped root)).
Proof.
  rewrite read_element_by_kind.
  assert (exists (T : Type) (r : res T) (k : T -> res (glif PD PL)), read_by_kind L pd0 P ped root = bind r k /\ follows r (document_checks L ped root) /\
            (forall v e, k v <> Err e) /\ r <> Panic) as (T & r & k & -> & [H1 H2] & Hk & Hnp).
  { set (adv := match hd_error (named "advance" root) with Some a => let* w := read_advance L ped a in Ok (Some w) | None => Ok None end).
    exists (str * option N * list N * list (anchor PD) * list glifimage * list (guideline PD) * (list (list glifpoint) * list glifcomponent))%type.
    exists (if negb (str_eqb (ename root) (lit "glyph")) then Err (EInput "Root element not <glyph>") else
      let* format := ok_or (get root "format") (EInput "no format in <glyph>") in
      if negb (str_eqb format (lit "2")) then Err (EInput "<glyph> format not 2") else
      let* name := ok_or (get root "name") (EInput "<glyph> has no name") in
      let* width := adv in
      let* unicodes := mapM read_unicode (named "unicode" root) in
      let* anchors := mapM (read_anchor L pd0 ped) (named "anchor" root) in
      let* images := mapM (read_image L) (named "image" root) in
      let* guidelines := mapM (read_guideline L pd0) (named "guideline" root) in
      let* oc := outline_by_kind L (hd_error (named "outline" root)) in
      Ok (name, width, unicodes, anchors, images, guidelines, oc)).
    exists (fun '(name, width, unicodes, anchors, images, guidelines, oc) =>
      let note := match hd_error (named "note" root) with Some n => get_text n | None => None end in
      let lib := read_lib P (hd_error (named "lib" root)) in
      let* o := outline_of_glif L (fst oc) in
      Ok (mkGlif (if nonempty o || nonempty (snd oc) then Some o else None) anchors
                 (mkComponents name (snd oc) []) guidelines images width unicodes name note None lib)).
    split; [|split; [|split]].
    - unfold read_by_kind. fold adv. destruct (negb _); [reflexivity|]. destruct (get root "format") as [fm|]; cbn [ok_or bind]; [|reflexivity].
      destruct (negb _); [reflexivity|]. destruct (get root "name") as [nm|]; cbn [ok_or bind]; [|reflexivity].
      destruct adv; cbn [bind]; try reflexivity. destruct (mapM _ (named "unicode" root)); cbn [bind]; try reflexivity.
      destruct (mapM _ (named "anchor" root)); cbn [bind]; try reflexivity. destruct (mapM _ (named "image" root)); cbn [bind]; try reflexivity.
      destruct (mapM _ (named "guideline" root)); cbn [bind]; try reflexivity. destruct (outline_by_kind _ _); cbn [bind]; reflexivity.
    - unfold document_checks.
      assert (S1 : follows (if negb (str_eqb (ename root) (lit "glyph")) then Err (EInput "Root element not <glyph>") else Ok tt)
        [Check (ename root = lit "glyph") (fun x => ename root <> lit "glyph" /\ x = EInput "Root element not <glyph>")]).
      { apply follows_one; cbn [passes fails]; destruct (str_eqb_spec' (ename root) (lit "glyph")) as [H|H]; cbn [negb].
        - intros x. split; [discriminate|intros [X _]; contradiction].
        - intros x. split; [intros [= <-]; auto|intros [_ ->]; reflexivity].
        - split; eauto.
        - split; [intros (v & X); discriminate|intros X; contradiction]. }
      assert (S2 : forall fm, get root "format" = Some fm -> follows (if negb (str_eqb fm (lit "2")) then Err (EInput "<glyph> format not 2") else Ok tt)
        [Check (get root "format" = Some (lit "2")) (fun x => get root "format" <> Some (lit "2") /\ x = EInput "<glyph> format not 2")]).
      { intros fm ->. apply follows_one; cbn [passes fails]; destruct (str_eqb_spec' fm (lit "2")) as [H|H]; cbn [negb].
        - intros x. split; [discriminate|intros [X _]; congruence].
        - intros x. split; [intros [= <-]; split; [congruence|reflexivity]|intros [_ ->]; reflexivity].
        - split; [congruence|eauto].
        - split; [intros (v & X); discriminate|intros X; congruence]. }
      match goal with |- follows (if ?b then ?e else ?k) _ => replace (if b then e else k) with (bind (if b then Err (EInput "Root element not <glyph>") else Ok tt) (fun _ => k)) by (destruct b; reflexivity) end.
      cbn [app]. apply follows_cons; [exact S1|]. intros _ _.
      apply follows_cons; [apply follows_present|]. intros fm Hfm. apply ok_or_ok in Hfm.
      match goal with |- follows (if ?b then ?e else ?k) _ => replace (if b then e else k) with (bind (if b then Err (EInput "<glyph> format not 2") else Ok tt) (fun _ => k)) by (destruct b; reflexivity) end.
      apply follows_cons; [now apply S2|]. intros _ _.
      apply follows_cons; [apply follows_present|]. intros nm _.
      apply follows_bind.
      { subst adv. destruct (named "advance" root) as [|a l]; cbn [hd_error firstn flat_map]; [apply follows_ok|]. rewrite app_nil_r. apply follows_last; [apply follows_advance|]. eauto. }
      intros w _. apply follows_bind; [apply follows_mapM, follows_unicode|]. intros us _.
      apply follows_bind; [apply follows_mapM; intros x; apply follows_anchor|]. intros an _.
      apply follows_bind; [apply follows_mapM; intros x; apply follows_image|]. intros im _.
      apply follows_bind; [apply follows_mapM; intros x; apply follows_guideline|]. intros gl _.
      apply follows_last; [apply follows_outline|]. eauto.
    - intros [[[[[[nm w] us] an] im] gl] oc] e. cbv zeta. destruct (outline_of_glif L (fst oc)) as [o|x|] eqn:E; cbn [bind]; try discriminate.
      exfalso. eapply (proj2 (outline_panic L (fst oc))). exact E.
    - destruct (negb (str_eqb (ename root) (lit "glyph"))); [discriminate|]. np. destruct (negb _); [discriminate|]. np.
      + subst adv. destruct (hd_error (named "advance" root)); [|discriminate]. np. apply read_advance_np.
      + apply mapM_no_panic. intros x. apply read_unicode_np.
      + apply mapM_no_panic. intros x. apply read_anchor_np.
      + apply mapM_no_panic. intros x. apply read_image_np.
      + apply mapM_no_panic. intros x. apply read_guideline_np.
      + destruct (hd_error (named "outline" root)) as [o|]; [|discriminate]. cbn [outline_by_kind]. np.
        * apply mapM_no_panic. intros x. apply mapM_no_panic. intros y. apply read_point_np.
        * apply mapM_no_panic. intros x. apply read_component_np. }
  assert (Q : forall e, bind r k = Err e <-> r = Err e).
  { intros e. destruct r as [v|x|]; cbn [bind]; [|split; congruence|split; discriminate]. split; [intros H; exfalso; eapply Hk; exact H|discriminate]. }
  split; [|split; [|split]].
  - intros e. rewrite Q. apply H1.
  - intros g Hg. apply bind_ok in Hg as (v & Hv & _). apply H2. eauto.
  - intros H e. rewrite Q. apply H2 in H as (v & ->). discriminate.
  - intros H. apply H2. destruct r as [v|x|]; [eauto|discriminate|congruence].
Qed.

(** A check that fails does not pass, and one that does not pass fails if it is reached. *)
Lemma first_failure_exclusive {A} (r : res A) cs e : follows r cs -> first_failure cs e -> ~ Forall passes cs.
Proof. intros [H1 H2] H X. apply H1 in H. apply H2 in X as (v & X). congruence. Qed.
End Read.
