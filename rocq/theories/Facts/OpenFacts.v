(** Opening a document gives a glyph that can be saved. *)
Require Import Coq.Strings.String Coq.Lists.List Coq.Arith.Arith Coq.NArith.NArith Coq.ZArith.ZArith Coq.Bool.Bool Coq.Floats.SpecFloat Coq.micromega.Lia Coq.Sorting.Permutation.
Require Import Verif.Model.Base Verif.Model.Text Verif.Model.Float Verif.Model.Num Verif.Model.RustNum Verif.Model.Point Verif.Model.Contour
  Verif.Model.Create Verif.Model.Conv Verif.Model.Strings Verif.Model.Names Verif.Model.Pedantry Verif.Model.Color Verif.Model.Xml
  Verif.Model.Parts Verif.Model.Read Verif.Model.Write
  Verif.Spec.TextSpec Verif.Spec.NumSpec Verif.Spec.ContourSpec Verif.Spec.OutlineSpec Verif.Spec.GlyphSpec Verif.Spec.DocumentSpec
  Verif.Spec.AccuracySpec Verif.Spec.RoundSpec Verif.Spec.OpenSpec
  Verif.Facts.ContourFacts   Verif.Facts.RustNumFacts Verif.Facts.ColorFacts Verif.Facts.NamesFacts Verif.Facts.TextFacts Verif.Facts.RoundFacts Verif.Facts.DecimalFacts Verif.Facts.CreateFacts Verif.Facts.ConvFacts
  Verif.Facts.XmlFacts Verif.Facts.GlyphFacts Verif.Facts.DocumentFacts Verif.Facts.WrittenFacts Verif.Facts.DigitFacts Verif.Facts.FailureFacts.
Import ListNotations.
Local Open Scope string_scope.
Local Open Scope list_scope.
Local Open Scope nat_scope.

(** ** Numbers *)
Definition proper (i : iof) : Prop :=
  match i with IInt z => (-2147483648 <= z <= 2147483647)%Z | IFloat f => valid32 f = true end.

Lemma rounded32_valid x f : rounded32 x f -> valid32 f = true.
Proof. destruct f as [s|s| |s m e]; cbn [rounded32]; try reflexivity; try easy. intros (_ & q & (H & _) & _). exact H. Qed.
Lemma text_valid t f : text_of_float t f -> valid32 f = true.
Proof. intros [(n & x & _ & H & _)|[(n & _ & ->)|(_ & ->)]]; [eapply rounded32_valid; exact H|reflexivity|reflexivity]. Qed.
Lemma f32_read_valid t f : f32_read rust_num t = Some f -> valid32 f = true.
Proof. intros H. apply f32_read_iff in H. eapply text_valid; exact H. Qed.
Lemma iof_read_proper t i : iof_read rust_num t = Some i -> proper i.
Proof.
  intros H. cbn [rust_num iof_read] in H. unfold rust_iof_read in H. destruct (parse_i32 t) as [z|] eqn:E.
  - injection H as <-. apply parse_i32_iff in E as [_ E]. cbn [proper]. lia.
  - destruct (rust_f32_read t) as [f|] eqn:E'; [|discriminate]. injection H as <-. exact (f32_read_valid t f E').
Qed.
Lemma value_valid i : proper i -> valid32 (f32_of_iof i) = true.
Proof. destruct i as [z|f]; [intros _; apply f32_of_Z_valid|exact (fun H => H)]. Qed.
Lemma rounded_valid f r : valid32 f = true -> rounded f r -> valid32 r = true.
Proof.
  intros Hf. destruct f as [s|s| |s m e]; cbn [rounded]; try (intros ->; exact Hf).
  destruct (0 <=? e)%Z; [intros ->; exact Hf|]. intros (n & _ & ->). destruct (n =? 0)%Z; [reflexivity|apply f32_of_Z_valid].
Qed.
Lemma proper_ok i : proper i -> i <> IFloat (S754_zero true) -> iof_ok i.
Proof. destruct i as [z|f]; cbn; [auto|]. intros H H'. split; [exact H|]. intros ->. now apply H'. Qed.

Lemma number_at_proper e k i : number_at rust_num e k i -> proper i.
Proof. intros (s & _ & H). eapply iof_read_proper; exact H. Qed.
Lemma number_or_proper d e k i : proper d -> number_or rust_num d e k i -> proper i.
Proof. intros Hd [[_ ->]|H]; [exact Hd|]. eapply number_at_proper; exact H. Qed.
Lemma matrix_proper one zero e m : proper one -> proper zero -> matrix_says rust_num one zero e m -> Forall proper (members m).
Proof.
  intros H1 H0 (A & B & C & D & E & F). unfold members.
  repeat (apply Forall_cons; [eapply number_or_proper; [|eassumption]; assumption|]). apply Forall_nil.
Qed.
Lemma color_proper e c : color_says rust_num e (Some c) -> Forall proper [cr c; cg c; cb c; ca c].
Proof.
  intros (s & _ & tr & tg & tb & ta & _ & _ & A & B & C & D).
  repeat (apply Forall_cons; [eapply iof_read_proper; eassumption|]). apply Forall_nil.
Qed.

(** ** Contours *)
Section Contours.
Context {PD : Type} (Q : f32 -> Prop).
Let goodg (g : glifpoint) : Prop := Q (f32_of_iof (gx g)) /\ Q (f32_of_iof (gy g)).
Let goodh (h : handle) : Prop := match h with At x y => Q x /\ Q y | Colocated => True end.
Let goodp (p : point PD) : Prop := Q (px p) /\ Q (py p) /\ goodh (pa p) /\ goodh (pb p).

Lemma goodp_in p : goodp p -> forall f, In f (coordinates p) -> Q f.
Proof.
  intros (A & B & C & D) f. unfold coordinates. rewrite !in_app_iff. intros [[<-|[<-|[]]]|[H|H]]; try assumption.
  - unfold goodh in C. destruct (pa p); [|destruct H]. destruct H as [<-|[<-|[]]]; tauto.
  - unfold goodh in D. destruct (pb p); [|destruct H]. destruct H as [<-|[<-|[]]]; tauto.
Qed.
Lemma good_handle o : (forall g, o = Some g -> goodg g) -> goodh (handle_of_gp o).
Proof. destruct o as [g|]; intros H; [exact (H g eq_refl)|exact I]. Qed.
Lemma good_pop {A} (R : A -> Prop) (s s' : list A) o : Forall R s -> pop s = (o, s') -> (forall g, o = Some g -> R g) /\ Forall R s'.
Proof. intros H E. destruct H as [|x s Hx Hs]; injection E as <- <-; split; try easy; try constructor. now intros g [= <-]. Qed.
Lemma good_last (f : point PD -> point PD) l : (forall p, goodp p -> goodp (f p)) -> Forall goodp l -> Forall goodp (map_last f l).
Proof.
  intros Hf. induction 1 as [|x l Hx Hl IH]; [constructor|]. destruct l as [|y l].
  - apply Forall_cons; [auto|apply Forall_nil].
  - change (Forall goodp (x :: map_last f (y :: l))). now apply Forall_cons.
Qed.
Lemma good_a h p : goodh h -> goodp p -> goodp (with_a p h).
Proof. intros H (A & B & C & D). exact (conj A (conj B (conj H D))). Qed.
Lemma good_b h p : goodh h -> goodp p -> goodp (with_b p h).
Proof. intros H (A & B & C & D). exact (conj A (conj B (conj C H))). Qed.

Lemma cubic_loop_good : forall l st st', Forall goodg l -> Forall goodp (fst st) -> Forall goodg (snd st) ->
  cubic_loop (PD:=PD) st l = Ok st' -> Forall goodp (fst st') /\ Forall goodg (snd st').
Proof.
  induction l as [|g l IH]; intros [c s] st' Hl Hc Hs H.
  - cbn in H. injection H as <-. auto.
  - inversion_clear Hl as [|? ? Hg Hl']. cbn [cubic_loop] in H. cbn [fst snd] in *.
    destruct (cubic_step (c, s) g) as [st1|e|] eqn:E; cbn [bind] in H; try discriminate.
    assert (Forall goodp (fst st1) /\ Forall goodg (snd st1)) as [A B]; [|now apply (IH st1)].
    unfold cubic_step in E.
    assert (forall st2, (let '(h1, stack) := pop s in let '(h2, stack) := pop stack in
       let contour := map_last (fun p => with_a p (handle_of_gp h1)) c in
       Ok (contour ++ [mkPoint (f32_of_iof (gx g)) (f32_of_iof (gy g)) (handle_of_gp h1) (handle_of_gp h2) (gname g) (gptype g) (gsmooth g) None], stack))
       = Ok st2 -> Forall goodp (fst st2) /\ Forall goodg (snd st2)) as Hon.
    { intros st2. destruct (pop s) as [h1 s1] eqn:E1. destruct (pop s1) as [h2 s2] eqn:E2.
      destruct (good_pop goodg _ _ _ Hs E1) as [P1 Hs1]. destruct (good_pop goodg _ _ _ Hs1 E2) as [P2 Hs2].
      intros [= <-]. cbn [fst snd]. split; [|exact Hs2]. apply Forall_app. split.
      - apply good_last; [|exact Hc]. intros p. apply good_a. now apply good_handle.
      - apply Forall_cons; [|apply Forall_nil]. split; [apply Hg|]. split; [apply Hg|]. split; now apply good_handle. }
    destruct (gptype g); try discriminate; try (now apply Hon); try (injection E as <-; cbn [fst snd]; auto; fail).
    injection E as <-. cbn [fst snd]. split; [exact Hc|]. apply Forall_app. split; [exact Hs|]. now apply Forall_cons.
Qed.

Lemma cubic_contour_good l c : Forall goodg l -> cubic_contour (PD:=PD) l = Ok c -> Forall goodp c.
Proof.
  intros Hl. unfold cubic_contour. destruct (cubic_loop ([], []) l) as [[c0 s]|e|] eqn:E; cbn [bind]; try discriminate.
  destruct (cubic_loop_good l ([], []) (c0, s) Hl) as [Hc Hs]; [constructor|constructor|exact E|]. cbn [fst snd] in Hc, Hs.
  destruct (pop s) as [h1 s1] eqn:E1. destruct (pop s1) as [h2 s2] eqn:E2.
  destruct (good_pop goodg _ _ _ Hs E1) as [P1 Hs1]. destruct (good_pop goodg _ _ _ Hs1 E2) as [P2 Hs2].
  assert (Forall goodp (map_last (fun p => with_a p (handle_of_gp h1)) c0)) as H.
  { apply good_last; [|exact Hc]. intros p. apply good_a. now apply good_handle. }
  destruct (map_last (fun p => with_a p (handle_of_gp h1)) c0) as [|p t]; [intros [= <-]; constructor|].
  inversion_clear H as [|? ? Hp Ht].
  assert (Forall goodp (if negb (ptype_eqb (pptype p) Move) then map_first (fun p => with_b p (handle_of_gp h2)) (p :: t) else p :: t)) as H.
  { destruct (negb _); cbn [map_first]; apply Forall_cons; try assumption. apply good_b; [now apply good_handle|assumption]. }
  destruct (if negb (ptype_eqb (pptype p) Move) then _ else _) as [|p' [|q t']]; [intros [= <-]; constructor| |intros [= <-]; exact H].
  destruct (ptype_eqb (pptype p') Move); intros [= <-]; [constructor|exact H].
Qed.

(** The coordinates of a contour that is read come from the points listed. *)
Lemma read_good L gc c g t : gc = g :: t -> gptype g <> QCurve -> gptype g <> QClose -> Forall goodg gc ->
  contour_of_glif (PD:=PD) L gc = Ok c -> forall p f, In p c -> In f (coordinates p) -> Q f.
Proof.
  intros -> H1 H2 Hg H p f Hp. assert (Forall goodp c) as Hc.
  { unfold contour_of_glif in H. destruct (gptype g); try congruence; try (injection H as <-; constructor);
      eapply cubic_contour_good; eassumption. }
  apply goodp_in. rewrite Forall_forall in Hc. now apply Hc.
Qed.
End Contours.

(** ** Saving what was read *)
Section Saving.
Context (L : numlib) {PD PL : Type} (pd0 : PD) (P : plistlib PL) (dbg : bool).

Lemma contour_xml_fine (c : contour PD) p t : c = p :: t ->
  (forall x, In x c -> pptype x <> Undefined /\ pptype x <> QClose) -> (exists x, In x c /\ pptype x <> OffCurve) ->
  (forall x, In x c -> pptype x = OffCurve -> psmooth x = false) ->
  exists e, contour_xml L dbg c = Ok e.
Proof.
  intros E Hty (x & Hx & Hx') Hs. unfold contour_xml. replace (3 * List.length c + 3) with (S (3 * List.length c + 2)) by lia.
  assert (~ no_on c) as Hno by (intros X; now apply X in Hx).
  pose proof (proj2 (into_glifpoints_spec L dbg (3 * List.length c + 2) c) p t E Hty Hno) as H. rewrite H.
  unfold gcontour_xml. assert (forall g, In g (started (all_written L p t)) -> gptype g = OffCurve -> gsmooth g = false) as Hg.
  { intros g Hg. destruct (into_glifpoints_in L dbg _ c _ g H Hg) as (q & Hq & [-> | (w & ->)]); [exact (Hs q Hq)|].
    intros _. unfold gp_from_handle. now destruct (handle_or_colocated q w _ _). }
  assert (exists es, mapM (gp_xml L dbg) (started (all_written L p t)) = Ok es) as (es & ->); [|cbn; eauto].
  clear H. induction (started (all_written L p t)) as [|g l IH]; [now exists []|].
  destruct IH as (es & IH); [intros x0 H0; apply Hg; now right|].
  assert (exists e, gp_xml L dbg g = Ok e) as (e & He).
  { unfold gp_xml. specialize (Hg g (or_introl eq_refl)). destruct (gsmooth g); [|eauto]. destruct (gptype g); rewrite ?andb_false_r; eauto.
    now discriminate Hg. }
  exists (e :: es). cbn [mapM]. rewrite He. cbn [bind]. now rewrite IH.
Qed.
Lemma contour_xml_closing (c : contour PD) : (exists x, In x c /\ pptype x = QClose) -> contour_xml L dbg c = Panic.
Proof.
  intros (x & Hx & Hx'). unfold contour_xml. replace (3 * List.length c + 3) with (S (3 * List.length c + 2)) by lia.
  rewrite (proj1 (into_glifpoints_spec L dbg (3 * List.length c + 2) c)); [reflexivity|]. right; left. eauto.
Qed.

(** A point that is itself off the curve is never written. *)
Lemma written_not_smooth q (c : contour PD) g : In g (flat_map kept1 (triples L q c)) -> gptype g = OffCurve -> gsmooth g = false.
Proof.
  revert q. induction c as [|p c IH]; intros q H E; [destruct H|]. cbn [triples flat_map] in H. apply in_app_iff in H as [H|H]; [|now apply (IH p)].
  unfold triple_of, kept1 in H. cbn [gp_of_point gptype] in H.
  assert (gsmooth (gp_from_handle L q WA) = false /\ gsmooth (gp_from_handle L p WB) = false) as [A B].
  { unfold gp_from_handle. destruct (handle_or_colocated q WA _ _), (handle_or_colocated p WB _ _). auto. }
  destruct (pptype p) eqn:T; cbn [In] in H;
    repeat (destruct H as [H|H]; [try (rewrite <- H; assumption); rewrite <- H in E; cbn [gp_of_point gptype] in E; congruence|]); contradiction.
Qed.
Lemma contour_xml_exact (c : contour PD) :
  ((forall p, In p c -> pptype p = OffCurve) \/ (exists p, In p c /\ (pptype p = Undefined \/ pptype p = QClose))) /\ contour_xml L dbg c = Panic \/
  ~ ((forall p, In p c -> pptype p = OffCurve) \/ (exists p, In p c /\ (pptype p = Undefined \/ pptype p = QClose))) /\ exists e, contour_xml L dbg c = Ok e.
Proof.
  unfold contour_xml. replace (3 * List.length c + 3) with (S (3 * List.length c + 2)) by lia.
  assert ((forall p, In p c -> pptype p = OffCurve) \/ exists p, In p c /\ pptype p <> OffCurve) as [H|H].
  { induction c as [|p c IH]; [left; intros ? []|]. destruct (ContourFacts.ptype_eqb_spec (pptype p) OffCurve) as [E|E]; [|right; exists p; split; [now left|assumption]].
    destruct IH as [IH|(x & Hx & IH)]; [left; intros x [<-|Hx]; auto|right; exists x; split; [now right|assumption]]. }
  - left. split; [now left|]. rewrite (proj1 (into_glifpoints_spec L dbg _ c)); [reflexivity|]. now right; right.
  - assert (forall d, d = c -> (exists p, In p d /\ (pptype p = Undefined \/ pptype p = QClose)) \/ forall p, In p d -> pptype p <> Undefined /\ pptype p <> QClose) as D.
    { intros d _. induction d as [|p d IH]; [right; intros ? []|].
      destruct IH as [(x & Hx & IH)|IH]; [left; exists x; split; [now right|assumption]|].
      destruct (pptype p) eqn:E; try (left; exists p; split; [now left|]; now (left + right)); right; intros x [<-|Hx]; auto; rewrite E; split; discriminate. }
    destruct (D c eq_refl) as [B|B]; clear D.
    + left. split; [now right|]. rewrite (proj1 (into_glifpoints_spec L dbg _ c)); [reflexivity|]. now right; left.
    + right. destruct H as (x & Hx & Hx'). split.
      { intros [A|(p & Hp & A)]; [now apply Hx', A|destruct (B p Hp) as [B1 B2]; destruct A; contradiction]. }
      destruct c as [|p t]; [destruct Hx|]. assert (~ no_on (p :: t)) as Hno by (intros X; now apply X in Hx).
      rewrite (proj2 (into_glifpoints_spec L dbg (3 * List.length (p :: t) + 2) (p :: t)) p t eq_refl B Hno).
      unfold gcontour_xml. assert (forall g, In g (started (all_written L p t)) -> gptype g = OffCurve -> gsmooth g = false) as Hg.
      { intros g Hg. apply (written_not_smooth (last t p) (p :: t)). change (In g (all_written L p t)). revert Hg. unfold started.
        destruct (all_written L p t) as [|a l] eqn:Ea; [intros []|]. destruct (offcurve a); [|auto].
        destruct (exists_last (l := a :: l)) as (m & z & Em); [discriminate|]. rewrite Em, rotate_right1_snoc.
        intros [<-|Hg]; apply in_app_iff; [right; now left|now left]. }
      assert (exists es, mapM (gp_xml L dbg) (started (all_written L p t)) = Ok es) as (es & ->); [|cbn; eauto].
      clear - Hg. induction (started (all_written L p t)) as [|g l IH]; [now exists []|].
      destruct IH as (es & IH); [intros x0 H0; apply Hg; now right|].
      assert (exists e, gp_xml L dbg g = Ok e) as (e & He).
      { unfold gp_xml. specialize (Hg g (or_introl eq_refl)). destruct (gsmooth g); [|eauto]. destruct (gptype g); rewrite ?andb_false_r; eauto.
        now discriminate Hg. }
      exists (e :: es). cbn [mapM]. rewrite He. cbn [bind]. now rewrite IH.
Qed.

Lemma says_type e g : point_says L e g -> (gptype g <> Undefined /\ gptype g <> QClose) /\ (gptype g = OffCurve -> gsmooth g = false).
Proof.
  intros (_ & _ & Ht & _ & Hs). split; [inversion Ht; split; discriminate|].
  intros E. destruct (gsmooth g); [|reflexivity]. destruct (proj1 Hs eq_refl) as [_ X]. now destruct X.
Qed.

Lemma with_implied_in (gc : list glifpoint) x : In x (with_implied (half (PD:=PD) L) gc) ->
  (exists g, In g gc /\ x = copied g) \/ pptype x = QCurve.
Proof.
  induction gc as [|g [|h t] IH]; [intros []|intros [<-|[]]; left; exists g; split; [now left|reflexivity]|].
  assert (In x (with_implied (half L) (h :: t)) -> (exists g0, In g0 (g :: h :: t) /\ x = copied g0) \/ pptype x = QCurve) as IH'.
  { intros H. destruct (IH H) as [(g0 & H0 & E)|E]; [left; exists g0; split; [now right|exact E]|now right]. }
  intros H. change (with_implied (half L) (g :: h :: t)) with
    (if offcurve g then if offcurve h then copied g :: half L g h :: with_implied (half (PD:=PD) L) (h :: t) else copied g :: with_implied (half L) (h :: t)
     else copied g :: with_implied (half L) (h :: t)) in H.
  assert (copied g = x \/ half L g h = x \/ In x (with_implied (half L) (h :: t))) as [<-|[<-|H']].
  { destruct (offcurve g), (offcurve h); cbn [In] in H; tauto. }
  - left. exists g. split; [now left|reflexivity].
  - now right.
  - auto.
Qed.

Lemma type_named_off o : type_named o OffCurve -> forall n, In n on_curve_names -> o <> Some (lit n).
Proof. intros H. inversion H. assumption. Qed.
Lemma type_named_inj o t t' : type_named o t -> type_named o t' -> t = t'.
Proof.
  intros H H'. destruct H; inversion H'; subst; try reflexivity; exfalso;
    try (match goal with X : forall n, In n on_curve_names -> _ |- _ => eapply X; [|reflexivity]; cbn; tauto end).
Qed.

(** Each contour that is read. *)
Lemma contour_saved ce gc c : Forall2 (point_says L) (named "point" ce) gc -> contour_of_glif (PD:=PD) L gc = Ok c -> c <> [] ->
  (loose_end ce -> contour_xml L dbg c = Panic) /\ (~ loose_end ce -> exists e, contour_xml L dbg c = Ok e).
Proof.
  intros Hp Hc Hne. destruct gc as [|g t]; [discriminate Hc|].
  assert (forall x, In x (g :: t) -> (gptype x <> Undefined /\ gptype x <> QClose) /\ (gptype x = OffCurve -> gsmooth x = false)) as Hall.
  { clear - Hp. induction Hp as [|e x l m H _ IH]; [intros ? []|]. intros y [<-|Hy]; [exact (says_type e x H)|auto]. }
  destruct (named "point" ce) as [|f tl] eqn:En; inversion Hp as [|? ? ? ? H1 H2]; subst.
  assert (point_says L (last tl f) (last t g)) as Hl.
  { clear - H1 H2. revert f g H1. induction H2 as [|e x l m H _ IH]; intros f g H1; [exact H1|].
    rewrite !last_cons_default. now apply IH. }
  assert (loose_end ce <-> gptype g = QCurve /\ gptype (last t g) = OffCurve) as Hloose.
  { destruct H1 as (_ & _ & H1 & _), Hl as (_ & _ & Hl & _). split.
    - intros (f' & tl' & E & E1 & E2). rewrite En in E. injection E as <- <-. split; [|eapply type_named_inj; eassumption].
      rewrite E1 in H1. eapply type_named_inj; [exact H1|constructor].
    - intros [E1 E2]. exists f, tl. split; [exact En|]. rewrite E1 in H1. rewrite E2 in Hl. split; [|exact Hl].
      now inversion H1. }
  assert (gptype g = QCurve \/ gptype g <> QCurve) as [Hq|Hq] by (destruct (gptype g); (now left) || (right; discriminate)).
  - rewrite (read_quadratic L g t (last t g) (or_introl Hq) eq_refl) in Hc. injection Hc as <-.
    assert (exists r, with_implied (half (PD:=PD) L) (g :: t) = copied g :: r) as (r & Er).
    { destruct t as [|h t]; [now exists []|]. cbn [with_implied]. unfold offcurve at 1. rewrite Hq. eauto. }
    split.
    + intros H. apply Hloose in H as [_ H]. apply contour_xml_closing. exists (closing L (last t g) g). split; [|reflexivity].
      apply in_app_iff. right. unfold offcurve. rewrite H. now left.
    + intros H. assert (offcurve (last t g) = false) as ->.
      { unfold offcurve. destruct (gptype (last t g)) eqn:E; try reflexivity. exfalso. apply H. apply Hloose. auto. }
      rewrite app_nil_r. apply (contour_xml_fine _ (copied g) r Er).
      * intros x Hx. apply with_implied_in in Hx as [(g0 & H0 & ->)|Hx]; [exact (proj1 (Hall g0 H0))|rewrite Hx; split; discriminate].
      * exists (copied g). split; [rewrite Er; now left|]. cbn. rewrite Hq. discriminate.
      * intros x Hx. apply with_implied_in in Hx as [(g0 & H0 & ->)|Hx]; [exact (proj2 (Hall g0 H0))|rewrite Hx; discriminate].
  - split; [intros H; apply Hloose in H as [H _]; contradiction|]. intros _.
    assert (cubic_contour (PD:=PD) (g :: t) = Ok c) as Hc'.
    { unfold contour_of_glif in Hc. destruct (Hall g (or_introl eq_refl)) as [[A B] _].
      destruct (gptype g); try congruence; injection Hc as <-; now destruct Hne. }
    apply cubic_contour_types in Hc'.
    assert (forall x, In x c -> pptype x = Move \/ pptype x = Line \/ pptype x = Curve) as Hty.
    { intros x Hx. apply (in_map pptype) in Hx. rewrite Hc' in Hx.
      assert (In (pptype x) (map gptype (filter on_type (g :: t)))) as Hx'.
      { destruct (map gptype (filter on_type (g :: t))) as [|[] [|? ?]]; try exact Hx. destruct Hx. }
      apply in_map_iff in Hx' as (y & <- & Hy). apply filter_In in Hy as [_ Hy]. unfold on_type in Hy. destruct (gptype y); auto; discriminate. }
    destruct c as [|p r]; [congruence|]. apply (contour_xml_fine (p :: r) p r eq_refl).
    + intros x Hx. destruct (Hty x Hx) as [->|[->| ->]]; split; discriminate.
    + exists p. split; [now left|]. destruct (Hty p (or_introl eq_refl)) as [->|[->| ->]]; discriminate.
    + intros x Hx E. destruct (Hty x Hx) as [H|[H|H]]; congruence.
Qed.

(** Each contour that is not read is not of that kind. *)
Lemma unread_saved ce gc : Forall2 (point_says L) (named "point" ce) gc -> gc = [] \/ unread gc -> ~ loose_end ce.
Proof.
  intros Hp Hu (f & tl & E & E1 & _). rewrite E in Hp. inversion Hp as [|? g ? t H1 H2]; subst.
  destruct H1 as (_ & _ & H1 & _). rewrite E1 in H1. assert (gptype g = QCurve) as Hg by (eapply type_named_inj; [exact H1|constructor]).
  destruct Hu as [Hu|(g' & t' & Eg & Hu)]; [discriminate|]. injection Eg as <- <-. rewrite Hg in Hu. destruct Hu as [[Hu|Hu]|[Hu _]]; discriminate.
Qed.

(** The contours of the glyph and the elements they are read from. *)
Definition read_from_element (ce : element) (c : contour PD) : Prop :=
  c <> [] /\ exists gc, Forall2 (point_says L) (named "point" ce) gc /\ contour_of_glif (PD:=PD) L gc = Ok c.
Definition not_read (ce : element) : Prop :=
  exists gc, Forall2 (point_says L) (named "point" ce) gc /\ (gc = [] \/ unread gc).

Lemma contours_read ped root (g : glif PD PL) : read_element L pd0 P ped root = Ok g ->
  (forall c, In c (contours g) -> exists ce, In ce (contours_in root) /\ read_from_element ce c) /\
  (forall ce, In ce (contours_in root) -> not_read ce \/ exists c, In c (contours g) /\ read_from_element ce c).
Proof.
  intros H. apply read_element_says in H.
  destruct H as (_ & _ & _ & _ & _ & _ & _ & _ & _ & _ & _ & _ & _ & gcs & o & H1 & H2 & H3).
  assert (contours g = o) as ->. { unfold contours. rewrite H3. destruct o, (cs_vec (g_components g)); reflexivity. }
  clear H3. unfold contours_in. unfold outline_says in H1. destruct (named "outline" root) as [|oe oes].
  - destruct H1 as [-> _]. cbn in H2. injection H2 as <-. split; intros ? [].
  - destruct H1 as (all & H & -> & _). apply outline_kept in H2. revert o H2.
    induction H as [|ce gc ces gcs Hce _ IH]; intros o H2; cbn [filter] in H2; [inversion H2; split; intros ? []|].
    assert (forall o', kept_in_order (fun gc c => contour_of_glif (PD:=PD) L gc = Ok c /\ c <> []) unread
              (filter (fun gc => match gc with [] => false | _ => true end) gcs) o' -> (gc = [] \/ unread gc) ->
            (forall c, In c o' -> exists ce0, In ce0 (ce :: ces) /\ read_from_element ce0 c) /\
            (forall ce0, In ce0 (ce :: ces) -> not_read ce0 \/ exists c, In c o' /\ read_from_element ce0 c)) as Hlost.
    { intros o' Ho Hu. destruct (IH o' Ho) as [IH1 IH2]. split.
      - intros c Hc. destruct (IH1 c Hc) as (e & He & Hr). exists e. split; [now right|exact Hr].
      - intros e [<-|He]; [left; exists gc; auto|auto]. }
    destruct gc as [|g0 t]; [apply Hlost; [exact H2|now left]|].
    inversion H2 as [|? y ? m Hx (Hy1 & Hy2) Hm|? ? ? Hx Hm]; subst; [|apply Hlost; [exact Hm|now right]].
    assert (read_from_element ce y) as Hr by (split; [exact Hy2|exists (g0 :: t); auto]).
    destruct (IH m Hm) as [IH1 IH2]. split.
    + intros c [<-|Hc]; [exists ce; split; [now left|exact Hr]|]. destruct (IH1 c Hc) as (e & He & Hr'). exists e. split; [now right|exact Hr'].
    + intros e [<-|He]; [right; exists y; split; [now left|exact Hr]|]. destruct (IH2 e He) as [Hn|(c & Hc & Hr')]; [now left|].
      right. exists c. split; [now right|exact Hr'].
Qed.

Lemma mapM_xml (f : contour PD -> res element) (cs : list (contour PD)) :
  (forall c, In c cs -> f c = Panic \/ exists e, f c = Ok e) ->
  (exists c, In c cs /\ f c = Panic) /\ mapM f cs = Panic \/ (forall c, In c cs -> exists e, f c = Ok e) /\ exists es, mapM f cs = Ok es.
Proof.
  induction cs as [|c cs IH]; intros H; [right; split; [intros ? []|now exists []]|]. cbn [mapM].
  destruct (H c (or_introl eq_refl)) as [E|(e & E)]; rewrite E; cbn [bind].
  - left. split; [|reflexivity]. exists c. split; [now left|exact E].
  - destruct IH as [[(x & Hx & Ex) E']|[Hx (es & E')]]; [intros x Hx; apply H; now right| |]; rewrite E'; cbn [bind].
    + left. split; [|reflexivity]. exists x. split; [now right|exact Ex].
    + right. split; [|eauto]. intros x [<-|Hx']; eauto.
Qed.

Lemma glif_xml_exact (g : glif PD PL) :
  (exists c, In c (contours g) /\
     ((forall p, In p c -> pptype p = OffCurve) \/ (exists p, In p c /\ (pptype p = Undefined \/ pptype p = QClose)))) /\ glif_xml L P dbg g = Panic \/
  ~ (exists c, In c (contours g) /\
     ((forall p, In p c -> pptype p = OffCurve) \/ (exists p, In p c /\ (pptype p = Undefined \/ pptype p = QClose)))) /\ exists e, glif_xml L P dbg g = Ok e.
Proof.
  assert (outline_children L dbg (g_outline g) = let* es := mapM (contour_xml L dbg) (contours g) in Ok (map NElem es)) as E.
  { unfold outline_children, contours. now destruct (g_outline g) as [cs|]. }
  unfold glif_xml. cbv zeta. rewrite E. clear E.
  destruct (mapM_xml (contour_xml L dbg) (contours g)) as [[(c & Hc & Ec) E]|[Hc (es & E)]].
  { intros c _. destruct (contour_xml_exact c) as [[_ X]|[_ X]]; auto. }
  - left. rewrite E. split; [|reflexivity]. exists c. split; [exact Hc|]. destruct (contour_xml_exact c) as [[X _]|[_ (e & X)]]; [exact X|congruence].
  - right. rewrite E. split; [|cbn [bind]; eauto]. intros (c & Hc' & X). destruct (Hc c Hc') as (e & He).
    destruct (contour_xml_exact c) as [[_ Y]|[Y _]]; [congruence|contradiction].
Qed.

Lemma loose_dec ce gc : Forall2 (point_says L) (named "point" ce) gc -> loose_end ce \/ ~ loose_end ce.
Proof.
  intros Hp. destruct (named "point" ce) as [|f tl] eqn:En; inversion Hp as [|? g ? t H1 H2]; subst.
  - right. intros (f & tl & E & _). rewrite En in E. discriminate.
  - assert (point_says L (last tl f) (last t g)) as Hl.
    { clear - H1 H2. revert f g H1. induction H2 as [|e x l m H _ IH]; intros f g H1; [exact H1|].
      rewrite !last_cons_default. now apply IH. }
    destruct H1 as (_ & _ & H1 & _), Hl as (_ & _ & Hl & _).
    assert (loose_end ce -> gptype g = QCurve /\ gptype (last t g) = OffCurve) as Hloose.
    { intros (f' & tl' & E & E1 & E2). rewrite En in E. injection E as <- <-. split; [|eapply type_named_inj; eassumption].
      rewrite E1 in H1. eapply type_named_inj; [exact H1|constructor]. }
    destruct (ptype_eqb (gptype g) QCurve && ptype_eqb (gptype (last t g)) OffCurve) eqn:Eb.
    + left. apply andb_true_iff in Eb as [E1 E2]. assert (gptype g = QCurve) as E1' by (destruct (gptype g); congruence || discriminate).
      assert (gptype (last t g) = OffCurve) as E2' by (destruct (gptype (last t g)); congruence || discriminate).
      exists f, tl. split; [exact En|]. rewrite E1' in H1. rewrite E2' in Hl. split; [now inversion H1|exact Hl].
    + right. intros H. apply Hloose in H as [H H']. rewrite H, H' in Eb. discriminate.
Qed.

Lemma which_saved ped root (g : glif PD PL) : read_element L pd0 P ped root = Ok g ->
  ((exists ce, In ce (contours_in root) /\ loose_end ce) /\ glif_xml L P dbg g = Panic) \/
  (~ (exists ce, In ce (contours_in root) /\ loose_end ce) /\ exists e, glif_xml L P dbg g = Ok e).
Proof.
  intros H. destruct (contours_read ped root g H) as [H1 H2]. clear H.
  assert (forall ce c, read_from_element ce c -> (loose_end ce /\ contour_xml L dbg c = Panic) \/ (~ loose_end ce /\ exists e, contour_xml L dbg c = Ok e)) as Hr.
  { intros ce c (Hc & gc & Hgc & Hok). destruct (contour_saved ce gc c Hgc Hok Hc) as [A B]. destruct (loose_dec ce gc Hgc) as [D|D]; [left|right]; auto. }
  assert (outline_children L dbg (g_outline g) = let* es := mapM (contour_xml L dbg) (contours g) in Ok (map NElem es)) as E.
  { unfold outline_children, contours. now destruct (g_outline g) as [cs|]. }
  unfold glif_xml. cbv zeta. rewrite E. clear E.
  destruct (mapM_xml (contour_xml L dbg) (contours g)) as [[(c & Hc & Ec) E]|[Hc (es & E)]].
  { intros c Hc. destruct (H1 c Hc) as (ce & Hce & Hx). destruct (Hr ce c Hx) as [[_ X]|[_ X]]; auto. }
  - left. rewrite E. split; [|reflexivity]. destruct (H1 c Hc) as (ce & Hce & Hx). exists ce. split; [exact Hce|].
    destruct (Hr ce c Hx) as [[X _]|[_ (e & X)]]; [exact X|congruence].
  - right. rewrite E. split; [|cbn [bind]; eauto]. intros (ce & Hce & Hl). destruct (H2 ce Hce) as [(gc & Hgc & Hu)|(c & Hc' & Hx)].
    + exact (unread_saved ce gc Hgc Hu Hl).
    + destruct (Hc c Hc') as (e & He). destruct (Hr ce c Hx) as [[_ X]|[X _]]; [congruence|contradiction].
Qed.
End Saving.

(** ** What was read is in order *)
Section Ok.
Context {PD PL : Type} (pd0 : PD) (P : plistlib PL).

Lemma legible_ok i : iof_ok i -> legible rust_num i.
Proof.
  destruct i as [z|f]; intros Hi; unfold legible.
  - exists (IInt z). cbn [rust_num iof_show iof_read]. rewrite rust_iof_round_trip_int by exact Hi. split; reflexivity.
  - destruct Hi as [Hv Hz]. pose proof (rust_iof_round_trip f Hv Hz) as H. cbn [rust_num iof_show iof_read].
    change (option_map f32_of_iof (rust_iof_read (rust_iof_show (IFloat f))) = Some f) in H.
    destruct (rust_iof_read (rust_iof_show (IFloat f))) as [j|]; [|discriminate H]. exists j. split; [reflexivity|]. cbn in H. injection H as H. now destruct j.
Qed.
Lemma proper_legible i : proper i -> i <> IFloat (S754_zero true) -> legible rust_num i.
Proof. intros H H'. apply legible_ok. now apply proper_ok. Qed.

Lemma width_bound ped e w : advance_says rust_num ped e w -> (w < 2 ^ 64)%N.
Proof.
  intros (s & _ & [H|(_ & _ & f & _ & _ & H)]).
  - unfold parse_u64 in H. apply parse_uint_iff in H as [_ H]; [|lia]. revert H; change (2 ^ 64)%N with 18446744073709551616%N; unfold u64_max; lia.
  - assert (Z.of_N w <= 2 ^ 64 - 1)%Z as X; [|lia].
    unfold cut_to_u64 in H. destruct f as [[]|[]| |[] m x]; try (rewrite H; cbn; lia). destruct H as (k & _ & H). lia.
Qed.

Lemma anchor_valid ped e a : anchor_says rust_num pd0 ped e a -> valid32 (an_x a) = true /\ valid32 (an_y a) = true.
Proof.
  intros ((x & y & Hx & Hy & Ax & Ay & _) & _).
  assert (forall i f, proper i -> anchor_coordinate ped i f -> valid32 f = true) as V.
  { intros i f Hi [A B]. assert (sfnt ped \/ ~ sfnt ped) as [D|D].
    { unfold sfnt. destruct (ped_level ped); (left; left; reflexivity) || (left; right; reflexivity) || (right; intros [X|X]; discriminate). }
    - eapply rounded_valid; [apply value_valid; exact Hi|auto].
    - rewrite (B D). now apply value_valid. }
  apply number_at_proper in Hx, Hy. split; [exact (V _ _ Hx Ax)|exact (V _ _ Hy Ay)].
Qed.
Lemma anchor_class_ok ped e a : anchor_says rust_num pd0 ped e a ->
  (forall s, an_class a = Some s -> usable_class s) /\ an_type a = (match an_class a with Some (95%N :: _) => AMark | _ => ABase end).
Proof.
  intros (_ & Hc & Ht & _).
  split; [intros s Hs; now apply Hc in Hs as [_ Hs]|].
  destruct (an_class a) as [[|c t]|] eqn:E.
  - destruct (an_type a) eqn:Et; try reflexivity. destruct (proj1 Ht eq_refl) as (t & X). discriminate.
  - destruct (N.eq_dec c 95) as [->|Hne]; [apply Ht; eauto|].
    assert (an_type a <> AMark) as X. { intros X. apply Ht in X as (t' & X). injection X as X _. contradiction. }
    transitivity ABase; [destruct (an_type a); congruence|].
    destruct c as [|q]; [reflexivity|]. repeat (destruct q as [q|q|]; try reflexivity). now destruct Hne.
  - destruct (an_type a) eqn:Et; try reflexivity. destruct (proj1 Ht eq_refl) as (t & X). discriminate.
Qed.

Lemma anchor_is_ok ped e a : anchor_says rust_num pd0 ped e a ->
  IFloat (an_x a) <> IFloat (S754_zero true) -> IFloat (an_y a) <> IFloat (S754_zero true) -> anchor_ok rust_num a.
Proof.
  intros Hs Nx Ny. destruct (anchor_valid ped e a Hs) as [Vx Vy].
  split; [apply (rust_iof_round_trip (an_x a) Vx); congruence|].
  split; [apply (rust_iof_round_trip (an_y a) Vy); congruence|]. exact (anchor_class_ok ped e a Hs).
Qed.

Lemma color_is_ok e c : color_says rust_num e (Some c) -> (forall i, In i [cr c; cg c; cb c; ca c] -> i <> IFloat (S754_zero true)) ->
  legible_color rust_num c.
Proof.
  intros H N i Hi. pose proof (color_proper e c H) as Hp. rewrite Forall_forall in Hp.
  split; [apply proper_legible; [now apply Hp|now apply N]|apply rust_iof_show_no_comma].
Qed.
Lemma guideline_is_ok e l : guideline_says rust_num pd0 e l ->
  (forall i, In i (gl_angle l :: numbers_of_color (gl_color l)) -> i <> IFloat (S754_zero true)) -> guideline_ok rust_num l.
Proof.
  intros ((sx & _ & Hx) & (sy & _ & Hy) & Ha & _ & Hc & _) N. apply f32_read_valid in Hx, Hy. apply number_at_proper in Ha.
  split; [exact (rust_f32_round_trip _ Hx)|]. split; [exact (rust_f32_round_trip _ Hy)|].
  split; [apply proper_legible; [exact Ha|apply N; now left]|].
  intros c Ec. rewrite Ec in Hc, N. eapply color_is_ok; [exact Hc|]. intros i Hi. apply N. now right.
Qed.
Lemma members_ok one zero e m : proper one -> proper zero -> matrix_says rust_num one zero e m ->
  (forall i, In i (members m) -> i <> IFloat (S754_zero true)) -> Forall (legible rust_num) (members m).
Proof.
  intros H1 H0 Hm N. pose proof (matrix_proper one zero e m H1 H0 Hm) as Hp. rewrite Forall_forall in *.
  intros i Hi. apply proper_legible; auto.
Qed.

Lemma contour_is_plain ce (c : contour PD) : plain_contour ce -> read_from_element rust_num ce c ->
  cubic_contour_form c /\ (forall p f, In p c -> In f (coordinates p) -> valid32 f = true).
Proof.
  intros Hpl (Hne & gc & Hp & Hc).
  assert (forall g t, gc = g :: t -> gptype g <> QCurve /\ (forall h, In h t -> gptype h <> QCurve /\ gptype h <> Move)) as Hty.
  { intros g t ->. unfold plain_contour in Hpl. destruct (named "point" ce) as [|f tl] eqn:En; inversion Hp as [|? ? ? ? H1 H2]; subst.
    assert (forall e h, point_says rust_num e h -> get e "type" <> Some (lit "qcurve") -> gptype h <> QCurve) as Tq.
    { intros e h (_ & _ & T & _) X E. rewrite E in T. inversion T. congruence. }
    assert (forall e h, point_says rust_num e h -> get e "type" <> Some (lit "move") -> gptype h <> Move) as Tm.
    { intros e h (_ & _ & T & _) X E. rewrite E in T. inversion T. congruence. }
    split; [eapply Tq; [exact H1|]; apply (Hpl [] f tl eq_refl)|].
    intros h Hh. apply in_split in Hh as (t1 & t2 & ->). apply Forall2_app_inv_r in H2 as (l1 & l2 & A & B & ->).
    inversion B as [|e ? l2' ? B1 B2]; subst. destruct (Hpl (f :: l1) e l2' eq_refl) as [X Y].
    split; [eapply Tq; eassumption|]. eapply Tm; [exact B1|]. apply Y. discriminate. }
  assert (forall x, In x gc -> (gptype x <> Undefined /\ gptype x <> QClose) /\ (proper (gx x) /\ proper (gy x))) as Hall.
  { clear - Hp. induction Hp as [|e x l m H _ IH]; [intros ? []|]. intros y [<-|Hy]; [|auto].
    split; [exact (proj1 (says_type rust_num e x H))|]. destruct H as (A & B & _). split; eapply number_at_proper; eassumption. }
  destruct gc as [|g t]; [discriminate Hc|]. destruct (Hty g t eq_refl) as [Hg Ht]. destruct (Hall g (or_introl eq_refl)) as [[Hu Hq] _].
  split.
  - assert (cubic_contour (PD:=PD) (g :: t) = Ok c) as Hc'.
    { unfold contour_of_glif in Hc. destruct (gptype g); try congruence; injection Hc as <-; now destruct Hne. }
    apply cubic_contour_types in Hc'. destruct c as [|p r]; [congruence|].
    assert (forall x, In x t -> on_type x = true -> gptype x = Line \/ gptype x = Curve) as Ht'.
    { intros x Hx Ho. destruct (Ht x Hx) as [A B]. unfold on_type in Ho. destruct (gptype x); auto; congruence. }
    assert (on_type g = true) as Ho.
    { unfold contour_of_glif in Hc. unfold on_type. destruct (gptype g); try congruence; injection Hc as Hc; discriminate. }
    cbn [filter] in Hc'. rewrite Ho in Hc'. cbn [map] in Hc'.
    assert (pptype p = gptype g /\ map pptype r = map gptype (filter on_type t) /\ (gptype g = Move -> r <> [])) as (E1 & E2 & E3).
    { destruct (map gptype (filter on_type t)) as [|y l] eqn:El.
      - unfold on_type in Ho. destruct (gptype g); try discriminate Ho; try discriminate Hc'; injection Hc' as -> E; repeat split; auto; try discriminate.
      - assert (map pptype (p :: r) = gptype g :: y :: l) as X by (destruct (gptype g); exact Hc'). injection X as -> X. repeat split; auto.
        intros _ ->. discriminate X. }
    exists p, r. split; [reflexivity|]. split.
    + rewrite E1. unfold on_type in Ho. destruct (gptype g); auto; discriminate.
    + apply Forall_forall. intros q Hq'. apply (in_map pptype) in Hq'. rewrite E2 in Hq'. apply in_map_iff in Hq' as (x & Ex & Hx).
      apply filter_In in Hx as [Hx Hx']. rewrite <- Ex. now apply Ht'.
  - intros p f Hp' Hf.
    eapply (read_good (fun f => valid32 f = true)); [reflexivity|exact Hg|exact Hq| |exact Hc|exact Hp'|exact Hf].
    apply Forall_forall. intros x Hx. destruct (Hall x Hx) as [_ [A B]]. split; now apply value_valid.
Qed.
Lemma contour_is_ok ce (c : contour PD) : plain_contour ce -> read_from_element rust_num ce c ->
  (forall f, In f (flat_map coordinates c) -> f <> S754_zero true) -> contour_ok rust_num c.
Proof.
  intros Hpl Hr N. destruct (contour_is_plain ce c Hpl Hr) as [Hf Hv]. split; [exact Hf|].
  intros p f Hp Hin. apply (proper_legible (IFloat f) (Hv p f Hp Hin)). intros X. injection X as X. apply (N f); [|exact X]. apply in_flat_map. eauto.
Qed.

Lemma Forall2_Forall_r {A B} (R : A -> B -> Prop) (S : B -> Prop) l m : Forall2 R l m -> (forall x y, In y m -> R x y -> S y) -> Forall S m.
Proof.
  induction 1 as [|x y l m H _ IH]; intros HS; constructor; [apply (HS x); [now left|exact H]|].
  apply IH. intros x' y' Hy. apply HS. now right.
Qed.

Lemma opened_ok ped root (g : glif PD PL) : read_element rust_num pd0 P ped root = Ok g ->
  (forall ce, In ce (contours_in root) -> plain_contour ce) -> lib_ok P (g_lib g) -> no_minus_zero g -> glyph_ok rust_num P g.
Proof.
  intros H Hpl Hlib Hz. destruct (contours_read rust_num pd0 P ped root g H) as [Hc _].
  assert (forall i, In i (numbers g) -> i <> IFloat (S754_zero true)) as N by (intros i Hi ->; exact (Hz Hi)). clear Hz.
  apply read_element_says in H. destruct H as (_ & _ & _ & Hw & Hu & Ha & Hi & Hgl & _ & _ & _ & _ & _ & gcs & o & Ho & _ & _).
  assert (Forall2 (component_says rust_num) (match named "outline" root with [] => [] | oe :: _ => named "component" oe end) (cs_vec (g_components g))) as Hk.
  { unfold outline_says in Ho. destruct (named "outline" root); [destruct Ho as [_ ->]; constructor|]. destruct Ho as (? & _ & _ & X). exact X. }
  unfold numbers in N. setoid_rewrite in_app_iff in N. 
  split.
  { intros w E. destruct (named "advance" root); [congruence|]. destruct Hw as (w' & E' & X). rewrite E in E'. injection E' as <-. eapply width_bound; exact X. }
  split. { eapply Forall2_Forall_r; [exact Hu|]. intros e c _ (s & _ & _ & X). exact X. }
  split.
  { eapply Forall2_Forall_r; [exact Ha|]. intros e a Hin X. eapply anchor_is_ok; [exact X| |]; apply N; left; apply in_flat_map; exists a; split; cbn; auto. }
  split.
  { eapply Forall2_Forall_r; [exact Hgl|]. intros e l Hin X. eapply guideline_is_ok; [exact X|]. intros i Hi'. apply N. right. apply in_app_iff. left. apply in_flat_map. eauto. }
  split.
  { eapply Forall2_Forall_r; [exact Hk|]. intros e k Hin (_ & X & _). eapply members_ok; [| |exact X|]; [reflexivity|cbn; lia|].
    intros i Hi'. apply N. right. apply in_app_iff. right. apply in_app_iff. left. apply in_flat_map. eauto. }
  split.
  { eapply Forall2_Forall_r; [exact Hi|]. intros e k Hin ((s & _ & E) & X & _). split; [intros s'; rewrite E; discriminate|].
    eapply members_ok; [| |exact X|]; [cbn; lia|cbn; lia|].
    intros i Hi'. apply N. right. apply in_app_iff. right. apply in_app_iff. right. apply in_app_iff. left. apply in_flat_map. eauto. }
  split; [exact Hlib|].
  apply Forall_forall. intros c Hin. destruct (Hc c Hin) as (ce & Hce & Hr). eapply contour_is_ok; [exact (Hpl ce Hce)|exact Hr|].
  intros f Hf E. apply (N (IFloat f)); [|now f_equal]. right. apply in_app_iff. right. apply in_app_iff. right. apply in_app_iff. right.
  apply in_map. apply in_flat_map in Hf as (p & Hp & Hf). apply in_flat_map. exists p. split; [|exact Hf]. apply in_concat. eauto.
Qed.
End Ok.

(** ** Contours written out in full *)
Section Complete.
Context {PD : Type}.
Implicit Types p q : point PD.

Definition linked p q : Prop := (pa p = Colocated <-> pptype q <> Curve) /\ (pb q = Colocated <-> pptype q <> Curve).
Fixpoint links (l : list (point PD)) : Prop :=
  match l with
  | x :: ((y :: _) as t) => linked x y /\ links t
  | _ => True
  end.
Lemma links_nth : forall l i x y, links l -> nth_error l i = Some x -> nth_error l (S i) = Some y -> linked x y.
Proof.
  induction l as [|a [|b l] IH]; intros i x y H Hx Hy; [destruct i; discriminate|destruct i as [|[|i]]; discriminate|].
  destruct H as [H1 H2]. destruct i as [|i].
  - injection Hx as <-. injection Hy as <-. exact H1.
  - exact (IH i x y H2 Hx Hy).
Qed.

Lemma links_storable p t : links (p :: t ++ [p]) -> Forall (fun q => pdata q = None) (p :: t) -> storable (p :: t).
Proof.
  intros Hl Hd i x y Hx Hy. rewrite Forall_forall in Hd. split; [apply Hd; eapply nth_error_In; exact Hx|].
  assert (i < List.length (p :: t)) as Hi by (apply nth_error_Some; congruence). cbn [List.length] in Hi.
  change (p :: t ++ [p]) with ((p :: t) ++ [p]) in Hl.
  assert (forall k, k < S (List.length t) -> nth_error ((p :: t) ++ [p]) k = nth_error (p :: t) k) as Hk.
  { intros k Hk. now apply nth_error_app1. }
  assert (nth_error ((p :: t) ++ [p]) (S (List.length t)) = Some p) as Hend.
  { rewrite nth_error_app2 by (cbn; lia). cbn [List.length]. now rewrite Nat.sub_diag. }
  unfold next_of in Hy. cbn [List.length] in Hy. split.
  - apply (links_nth _ i x y Hl); [rewrite Hk by lia; exact Hx|].
    destruct (Nat.eq_dec i (List.length t)) as [->|Hne].
    + rewrite Nat.add_1_r, Nat.mod_same in Hy by lia. rewrite Hend. exact Hy.
    + rewrite Nat.mod_small in Hy by lia. rewrite Hk by lia. now rewrite Nat.add_1_r in Hy.
  - destruct i as [|i].
    + injection Hx as <-. destruct (nth_error ((p :: t) ++ [p]) (List.length t)) as [z|] eqn:E.
      * exact (proj2 (links_nth _ _ _ _ Hl E Hend)).
      * apply nth_error_None in E. rewrite app_length in E. cbn in E. lia.
    + destruct (nth_error (p :: t) i) as [z|] eqn:E.
      * apply (links_nth _ i z x Hl); rewrite Hk by lia; assumption.
      * apply nth_error_None in E. cbn in E. lia.
Qed.

Lemma links_end l p q : (pb p = pb q) -> pptype p = pptype q -> links (l ++ [p]) -> links (l ++ [q]).
Proof.
  intros Hb Ht. induction l as [|x l IH]; [exact (fun _ => I)|]. destruct l as [|y l].
  - intros [H _]. split; [|exact I]. unfold linked in *. now rewrite <- Hb, <- Ht.
  - intros [H1 H2]. split; [exact H1|exact (IH H2)].
Qed.
Lemma links_start p q l : pa p = pa q -> links (p :: l) -> links (q :: l).
Proof. destruct l as [|y l]; [trivial|]. intros Ha [H1 H2]. split; [|exact H2]. unfold linked in *. now rewrite <- Ha. Qed.

Lemma built_links : forall ts, pieces ts -> forall l, map gptype l = ts -> forall p,
  links (built p [] l) /\ exists m z, built p [] l = m ++ [z] /\ pa z = Colocated.
Proof.
  induction 1 as [|ts _ IH|ts _ IH]; intros l El p.
  - apply map_eq_nil in El as ->. split; [exact I|]. exists [], (with_a p Colocated). split; reflexivity.
  - destruct l as [|h l]; [discriminate|]. injection El as Eh El. destruct (IH l El (made h [])) as (H1 & m & z & E & Hz).
    destruct (built_head l (made (PD:=PD) h []) []) as (a & t & Ea & _).
    cbn [built]. unfold offcurve. rewrite Eh. rewrite Ea in *. split.
    + split; [|exact H1]. unfold linked. cbn. rewrite Eh. split; split; (reflexivity || discriminate).
    + exists (with_a p (out_of []) :: m), z. rewrite E. split; [reflexivity|exact Hz].
  - destruct l as [|a [|b [|h l]]]; try discriminate. injection El as Ea Eb Eh El.
    destruct (IH l El (made h [a; b])) as (H1 & m & z & E & Hz).
    destruct (built_head l (made (PD:=PD) h [a; b]) []) as (o & t & Eo & _).
    cbn [built]. unfold offcurve. rewrite Ea, Eb, Eh. cbn [app]. rewrite Eo in *. split.
    + split; [|exact H1]. unfold linked. cbn. rewrite Eh. split; split; (discriminate || congruence).
    + exists (with_a p (out_of [a; b]) :: m), z. rewrite E. split; [reflexivity|exact Hz].
Qed.
Lemma built_snoc g : offcurve g = false -> forall l p offs,
  built p offs (l ++ [g]) = built p offs l ++ [with_a (made g (left_over offs l)) Colocated].
Proof.
  intros Hg. induction l as [|h l IH]; intros p offs; cbn [app built left_over]; [now rewrite Hg|].
  destruct (offcurve h); [apply IH|]. cbn [app]. now rewrite IH.
Qed.

Lemma pieces_scan : forall ts, pieces ts -> forall l, map gptype l = ts -> scan 0 l = true /\ Forall in_form l.
Proof.
  induction 1 as [|ts _ IH|ts _ IH]; intros l El.
  - apply map_eq_nil in El as ->. split; [reflexivity|constructor].
  - destruct l as [|h l]; [discriminate|]. injection El as Eh El. destruct (IH l El) as [A B]. split.
    + cbn [scan]. unfold offcurve. rewrite Eh. exact A.
    + apply Forall_cons; [right; left; exact Eh|exact B].
  - destruct l as [|a [|b [|h l]]]; try discriminate. injection El as Ea Eb Eh El. destruct (IH l El) as [A B]. split.
    + cbn [scan]. unfold offcurve. rewrite Ea, Eb, Eh. exact A.
    + apply Forall_cons; [left; exact Ea|]. apply Forall_cons; [left; exact Eb|]. apply Forall_cons; [right; right; exact Eh|exact B].
Qed.
Lemma short_on g t : offcurve g = false -> short_runs t -> short_runs (g :: t).
Proof.
  intros Hg H [|x l] a b c r E (A & B & C); injection E as E1 E2; [congruence|]. exact (H l a b c r E2 (conj A (conj B C))).
Qed.
Lemma short_prefix l r : short_runs (l ++ r) -> short_runs l.
Proof. intros H x a b c y ->. apply (H x a b c (y ++ r)). now rewrite <- app_assoc. Qed.

Lemma complete_storable L ce (c : contour PD) : complete_contour ce -> read_from_element L ce c -> storable c.
Proof.
  intros (ts & Hts & Hcase) (Hne & gc & Hp & Hc).
  assert (map gptype gc = ts) as E.
  { clear - Hts Hp. revert gc Hp. induction Hts as [|e t l m H _ IH]; intros gc Hp; inversion Hp as [|? g ? gc' H1 H2]; subst; [reflexivity|].
    cbn [map]. f_equal; [|now apply IH]. destruct H1 as (_ & _ & H1 & _). eapply type_named_inj; eassumption. }
  destruct Hcase as [->|[(r & -> & Hr)|(t & r & -> & Ht & Hr)]].
  - apply map_eq_nil in E as ->. discriminate Hc.
  - destruct gc as [|g gc]; [discriminate|]. injection E as Eg Er.
    destruct (pieces_scan r Hr gc Er) as [Hs Hf]. assert (offcurve g = false) as Hg by (unfold offcurve; now rewrite Eg).
    assert (contour_of_glif (PD:=PD) L (g :: gc) = cubic_contour (g :: gc)) as Ec by (unfold contour_of_glif; now rewrite Eg).
    rewrite Ec, (cubic_contour_built g gc (or_introl Eg) Hf (short_on g gc Hg (scan_short _ Hs))) in Hc. rewrite Eg in Hc. cbn [ptype_eqb] in Hc.
    destruct (built_links r Hr gc Er (made g [])) as (H1 & m & z & Ez & Hz). pose proof (built_data gc (made (PD:=PD) g []) [] eq_refl) as Hd.
    destruct (built_head gc (made (PD:=PD) g []) []) as (a & u & Ea & _). cbv zeta in Hc. rewrite Ea in Hc, H1, Hd, Ez.
    assert (c = with_a (made g []) a :: u) as ->.
    { destruct u; injection Hc as <-; [now destruct Hne|reflexivity]. }
    apply links_storable; [|exact Hd]. change (with_a (made g []) a :: u ++ [with_a (made g []) a]) with ((with_a (made g []) a :: u) ++ [with_a (made (PD:=PD) g []) a]).
    rewrite Ez in H1 |- *. rewrite <- app_assoc. cbn [app].
    assert (linked z (with_a (made g []) a)) as Hlast.
    { unfold linked. cbn. rewrite Eg. split; split; auto; discriminate. }
    clear - H1 Hlast. induction m as [|x m IH]; [exact (conj Hlast I)|]. destruct m as [|y m].
    + destruct H1 as [H1 _]. exact (conj H1 (conj Hlast I)).
    + destruct H1 as [H1 H2]. exact (conj H1 (IH H2)).
  - destruct gc as [|g gc]; [discriminate|]. injection E as Eg Er. subst t.
    assert (map gptype (gc ++ [g]) = r ++ [gptype g]) as E' by (rewrite map_app; cbn; congruence).
    destruct (pieces_scan _ Hr _ E') as [Hs Hf]. apply Forall_app in Hf as [Hf Hg']. inversion_clear Hg' as [|? ? Hin _].
    assert (pieces (r ++ [gptype g]) -> gptype g <> OffCurve) as Hoff.
    { clear. remember (r ++ [gptype g]) as l eqn:El. intros H. revert r El. induction H as [|ts _ IH|ts _ IH]; intros r El.
      - destruct r; discriminate.
      - destruct r as [|x r]; [injection El as El _; congruence|]. injection El as _ El. now apply (IH r).
      - destruct r as [|x [|y [|w r]]]; try discriminate; [injection El as _ _ El _; congruence|]. injection El as _ _ _ El. now apply (IH r). }
    specialize (Hoff Hr). assert (offcurve g = false) as Hg by (unfold offcurve; destruct (gptype g); congruence).
    assert (gptype g = Move \/ gptype g = Line \/ gptype g = Curve) as Hg3 by (destruct Hin as [H|H]; [contradiction|tauto]).
    assert (contour_of_glif (PD:=PD) L (g :: gc) = cubic_contour (g :: gc)) as Ec by (unfold contour_of_glif; destruct Hg3 as [->|[->| ->]]; reflexivity).
    rewrite Ec, (cubic_contour_built g gc Hg3 Hf (short_on g gc Hg (short_prefix _ _ (scan_short _ Hs)))) in Hc. cbv zeta in Hc.
    assert (ptype_eqb (gptype g) Move = false) as Em by (destruct (gptype g); congruence || reflexivity). rewrite Em in Hc.
    destruct (built_links _ Hr _ E' (made g [])) as (H1 & _). rewrite (built_snoc g Hg) in H1. pose proof (built_data gc (made (PD:=PD) g []) [] eq_refl) as Hd.
    destruct (built_head gc (made (PD:=PD) g []) []) as (a & u & Ea & _). rewrite Ea in Hc, H1, Hd. cbn [map_first] in Hc. injection Hc as <-.
    apply links_storable.
    + apply (links_end (_ :: u) (with_a (made g (left_over [] gc)) Colocated)); [reflexivity|reflexivity|].
      cbn [app] in H1 |- *. eapply links_start; [|exact H1]. reflexivity.
    + inversion_clear Hd as [|? ? D1 D2]. apply Forall_cons; [exact D1|exact D2].
Qed.

Lemma kept_exactly L ce (c c' : contour PD) : complete_contour ce -> read_from_element L ce c -> contour_restored c c' ->
  kept_whole c c'.
Proof.
  intros Hcomp Hr [R1 R2]. pose proof (complete_storable L ce c Hcomp Hr) as Hs.
  destruct c as [|p t]; [now destruct Hr|]. exists p, t. split; [reflexivity|]. split; intros Hp.
  - apply storable_exact; [exact Hs|]. exact (R1 p t eq_refl Hp).
  - destruct (R2 p t eq_refl Hp) as (c1 & H1 & H2). pose proof (storable_earlier _ c1 H1 Hs) as Hs1. now rewrite (storable_exact c1 c' Hs1 H2).
Qed.
End Complete.

Lemma pieces_types ts : pieces ts -> Forall (fun t => t = OffCurve \/ t = Line \/ t = Curve) ts.
Proof. induction 1; repeat (apply Forall_cons; [auto|]); assumption || apply Forall_nil. Qed.
Lemma complete_plain ce : complete_contour ce -> plain_contour ce.
Proof.
  intros (ts & Hts & Hcase) pre e post E. rewrite E in Hts.
  apply Forall2_app_inv_l in Hts as (l1 & l2 & A & B & ->). inversion B as [|? t ? l3 Ht _]; subst.
  assert (forall l, Forall (fun t => t = OffCurve \/ t = Line \/ t = Curve) l -> In t l ->
            get e "type" <> Some (lit "qcurve") /\ (pre <> [] -> get e "type" <> Some (lit "move"))) as Hin.
  { intros l Hl Hi. rewrite Forall_forall in Hl. apply Hl in Hi.
    split; intros X; [|intros X']; (rewrite X in Ht || rewrite X' in Ht).
    - apply (type_named_inj _ _ QCurve) in Ht; [|constructor]. subst. destruct Hi as [|[|]]; discriminate.
    - apply (type_named_inj _ _ Move) in Ht; [|constructor]. subst. destruct Hi as [|[|]]; discriminate. }
  destruct Hcase as [X|[(r & X & Hr)|(t0 & r & X & Ht0 & Hr)]].
  - destruct l1; discriminate.
  - destruct l1 as [|y l1].
    + inversion A; subst. injection X as -> ->. split; [|congruence]. intros X. rewrite X in Ht.
      apply (type_named_inj _ _ QCurve) in Ht; [discriminate|constructor].
    + injection X as -> X. apply (Hin r); [now apply pieces_types|]. rewrite <- X. apply in_app_iff. right. now left.
  - apply (Hin (r ++ [t0])); [now apply pieces_types|]. assert (In t (t0 :: r)) as [->|H] by (rewrite <- X; apply in_app_iff; right; now left).
    + apply in_app_iff. right. now left.
    + apply in_app_iff. now left.
Qed.

(** ** Quadratic contours a second time *)
Section Again.
Context (L : numlib) {PD : Type}.

Lemma with_implied_end hf g t : exists m, with_implied (PD:=PD) hf (g :: t) = m ++ [copied (last t g)].
Proof.
  revert g. induction t as [|h t IH]; intros g; [exists []; reflexivity|]. rewrite with_implied_2, last_cons_default.
  destruct (IH h) as (m & E). rewrite E. destruct (offcurve g), (offcurve h).
  - exists (copied g :: hf g h :: m). reflexivity.
  - exists (copied g :: m). reflexivity.
  - exists (copied g :: m). reflexivity.
  - exists (copied g :: m). reflexivity.
Qed.
Lemma triples_app (c d : list (point PD)) : forall q, exists q', triples L q (c ++ d) = triples L q c ++ triples L q' d.
Proof.
  induction c as [|p c IH]; intros q; [exists q; reflexivity|]. destruct (IH p) as (q' & E). exists q'. cbn [app triples]. now rewrite E.
Qed.

(** What is written for a contour starting with a `qcurve` point. *)
Lemma quad_again dbg f g t (c : contour PD) gps : gptype g = QCurve ->
  (forall x, In x (g :: t) -> gptype x <> Undefined /\ gptype x <> QClose) ->
  contour_of_glif (PD:=PD) L (g :: t) = Ok c -> into_glifpoints L dbg (S f) c = Some (Ok gps) ->
  exists h m, gps = h :: m /\ gptype h = gptype (last t g) /\ gptype h <> OffCurve /\
    (gptype h = QCurve -> gptype (last m h) = OffCurve) /\
    (gptype h <> QCurve -> exists x, In x m /\ gptype x = QCurve).
Proof.
  intros Hg Hall Hc Hw. rewrite (read_quadratic L g t (last t g) (or_introl Hg) eq_refl) in Hc. injection Hc as <-.
  destruct (offcurve (last t g)) eqn:Eo.
  { exfalso. rewrite (proj1 (into_glifpoints_spec L dbg f _)) in Hw; [discriminate|]. right; left. exists (closing L (last t g) g).
    split; [|now right]. apply in_app_iff. right. now left. }
  rewrite app_nil_r in Hw. destruct (with_implied_ne (half (PD:=PD) L) g t) as (r & Er).
  destruct (with_implied_end (half (PD:=PD) L) g t) as (m0 & Em).
  assert (into_glifpoints L dbg (S f) (with_implied (half (PD:=PD) L) (g :: t)) = Some (Ok (started (all_written L (copied g) r)))) as Hs;
    [apply (proj2 (into_glifpoints_spec L dbg f _) (copied g) r Er)|].
  1:{ intros x Hx. apply with_implied_in in Hx as [(g0 & H0 & ->)|Hx]; [exact (Hall g0 H0)|rewrite Hx; split; discriminate]. }
  1:{ intros X. assert (pptype (copied (PD:=PD) g) = OffCurve) as Y by (apply X; rewrite Er; now left). cbn in Y. congruence. }
  change (into_glifpoints L dbg (S f) (with_implied (half (PD:=PD) L) (g :: t)) = Some (Ok gps)) in Hw.
  assert (gps = started (all_written L (copied g) r)) as -> by congruence. clear Hw Hs. set (w := copied (PD:=PD) (last t g)) in *.
  assert (gptype (gp_of_point L w) = gptype (last t g)) as Ht by reflexivity.
  assert (exists q', all_written L (copied g) r = flat_map kept1 (triples L (last r (copied g)) m0) ++ kept1 (triple_of L q' w)) as (q' & E1).
  { unfold all_written. rewrite <- Er, Em. destruct (triples_app m0 [w] (last r (copied g))) as (q' & E). exists q'. rewrite E, flat_map_app.
    cbn [triples flat_map]. now rewrite app_nil_r. }
  assert (exists y z rest, all_written L (copied g) r = y :: z :: rest /\ gptype y = OffCurve /\ gptype z = QCurve) as (y & z & rest & E2 & Ey & Ez).
  { unfold all_written. cbn [triples flat_map]. unfold kept1 at 1, triple_of. change (gptype (gp_of_point L (copied (PD:=PD) g))) with (gptype g). rewrite Hg. cbn [app].
    do 3 eexists. split; [reflexivity|]. split; [|exact Hg]. unfold gp_from_handle. now destruct (handle_or_colocated _ WB _ _). }
  destruct (Hall (last t g)) as [N1 N2].
  { clear. destruct t as [|h t]; [now left|]. right. rewrite last_cons_default. clear. revert h. induction t as [|a t IH]; intros h; [now left|].
    rewrite last_cons_default. right. apply IH. }
  assert (exists k, kept1 (triple_of L q' w) = k ++ [gp_of_point L w] /\ (gptype (last t g) = QCurve -> exists o, k = [o] /\ gptype o = OffCurve)) as (k & E3 & Hk).
  { unfold kept1, triple_of. rewrite Ht. unfold offcurve in Eo. destruct (gptype (last t g)); try congruence; try discriminate.
    - exists []. split; [reflexivity|discriminate].
    - exists [gp_from_handle L q' WA; gp_from_handle L w WB]. split; [reflexivity|discriminate].
    - exists [gp_from_handle L w WB]. split; [reflexivity|]. intros _. eexists. split; [reflexivity|]. unfold gp_from_handle. now destruct (handle_or_colocated _ WB _ _).
    - exists []. split; [reflexivity|discriminate]. }
  rewrite E3, app_assoc in E1. set (A := flat_map kept1 (triples L (last r (copied g)) m0)) in *.
  assert (started (all_written L (copied g) r) = gp_of_point L w :: A ++ k) as Es.
  { rewrite E2. cbn [started]. unfold offcurve. rewrite Ey. rewrite <- E2, E1. apply rotate_right1_snoc. }
  exists (gp_of_point L w), (A ++ k). split; [exact Es|]. split; [exact Ht|]. split.
  { rewrite Ht. intros X. unfold offcurve in Eo. rewrite X in Eo. discriminate. }
  split.
  - intros H. rewrite Ht in H. destruct (Hk H) as (o & -> & Ho). now rewrite last_last.
  - intros H. exists z. split; [|exact Ez]. assert (In z ((A ++ k) ++ [gp_of_point L w])) as Hz by (rewrite <- E1, E2; right; now left).
    apply in_app_iff in Hz as [Hz|[<-|[]]]; [exact Hz|congruence].
Qed.

Lemma attr_get_in k a v : attr_get k a = Some v -> In (k, v) a.
Proof.
  induction a as [|[k' v'] a IH]; cbn [attr_get]; [discriminate|]. destruct (str_eqb_spec k k') as [->|_]; [intros [= ->]; now left|].
  intros H. right. auto.
Qed.
Lemma attr_in_get k a v : In (k, v) a -> exists v', attr_get k a = Some v'.
Proof.
  induction a as [|[k' v'] a IH]; cbn [attr_get]; [intros []|]. destruct (str_eqb_spec k k') as [->|N]; [eauto|].
  intros [H|H]; [|auto]. injection H as -> ->. now destruct N.
Qed.
Lemma written_type g e : point_written L g e -> gptype g <> Undefined -> gptype g <> QClose -> type_named (get e "type") (gptype g).
Proof.
  intros [H _] N1 N2. unfold attributes in H. unfold get.
  set (l := flat_map _ _) in H.
  assert (forall v, In (lit "type", v) l <-> type_text (gptype g) = Some v) as Hl.
  { intros v. unfold l. cbn [flat_map fst snd]. rewrite !in_app_iff.
    destruct (type_text (gptype g)) as [s|], (gname g) as [n|], (gsmooth g); cbn; intuition (try congruence; try discriminate). }
  assert (forall v, attr_get (lit "type") (eattrs e) = Some v -> type_text (gptype g) = Some v) as H1.
  { intros v Hv. apply Hl. apply attr_get_in in Hv. eapply Permutation_in; eassumption. }
  destruct (type_text (gptype g)) as [s|] eqn:Es.
  - assert (In (lit "type", s) (eattrs e)) as Hi by (eapply Permutation_in; [symmetry; exact H|apply Hl; reflexivity]).
    destruct (attr_in_get _ _ _ Hi) as (v & Hv). pose proof (H1 v Hv) as X. injection X as <-. rewrite Hv.
    destruct (gptype g); try congruence; unfold type_text in Es; congruence || (apply (f_equal (fun o => match o with Some x => x | None => [] end)) in Es; cbv beta iota in Es; rewrite <- Es; constructor).
  - destruct (attr_get (lit "type") (eattrs e)) as [v|] eqn:Ev; [discriminate (H1 v eq_refl)|].
    destruct (gptype g); try discriminate. constructor. discriminate.
Qed.

Lemma unreadable_panics gc : unreadable gc -> contour_of_glif (PD:=PD) L gc = Panic.
Proof.
  intros H. assert (outline_of_glif (PD:=PD) L [gc] = Panic) as X by (apply (proj1 (outline_panic (PD:=PD) L [gc])); exists gc; split; [now left|exact H]).
  unfold outline_of_glif in X. cbn [mapM] in X. destruct (contour_of_glif L gc); try discriminate. reflexivity.
Qed.

Lemma quad_second f dbg g t (c : contour PD) gps : gptype g = QCurve ->
  (forall x, In x (g :: t) -> gptype x <> Undefined /\ gptype x <> QClose) ->
  contour_of_glif (PD:=PD) L (g :: t) = Ok c -> into_glifpoints L dbg (S f) c = Some (Ok gps) ->
  (gptype (last t g) <> QCurve -> contour_of_glif (PD:=PD) L gps = Panic) /\
  (gptype (last t g) = QCurve -> exists c', contour_of_glif (PD:=PD) L gps = Ok c' /\
     forall dbg' f', into_glifpoints L dbg' (S f') c' = Some Panic).
Proof.
  intros Hg Hall Hc Hw. destruct (quad_again dbg f g t c gps Hg Hall Hc Hw) as (h & m & -> & Eh & Ho & Hq & Hn). rewrite <- Eh. split; intros H.
  - apply unreadable_panics. right. exists h, m. split; [reflexivity|]. split; [|exact (Hn H)].
    assert (In (last t g) (g :: t)) as Hi.
    { clear. destruct t as [|x t]; [now left|]. right. rewrite last_cons_default. clear. revert x. induction t as [|a t IH]; intros x; [now left|].
      rewrite last_cons_default. right. apply IH. }
    destruct (Hall _ Hi) as [N1 N2]. rewrite <- Eh in N1, N2. destruct (gptype h); auto; congruence.
  - rewrite (read_quadratic L h m (last m h) (or_introl H) eq_refl). eexists. split; [reflexivity|]. intros dbg' f'.
    apply (proj1 (into_glifpoints_spec L dbg' f' _)). right; left. exists (closing L (last m h) h). split; [|now right].
    apply in_app_iff. right. unfold offcurve. rewrite (Hq H). now left.
Qed.

Context {PL : Type} (pd0 : PD) (P : plistlib PL).

Lemma says_types es gc : Forall2 (point_says L) es gc -> Forall2 (fun e t => type_named (get e "type") t) es (map gptype gc).
Proof. induction 1 as [|e g es gc H _ IH]; constructor; [|exact IH]. now destruct H as (_ & _ & H & _). Qed.
Lemma types_unique es ts ts' : Forall2 (fun e t => type_named (get e "type") t) es ts -> Forall2 (fun e t => type_named (get e "type") t) es ts' -> ts = ts'.
Proof.
  intros H. revert ts'. induction H as [|e t es ts H _ IH]; intros ts' H'; inversion H' as [|? t' ? ts1 A B]; subst; [reflexivity|].
  f_equal; [eapply type_named_inj; eassumption|auto].
Qed.
Lemma last_type l (h : glifpoint) : gptype (last l h) = last (map gptype l) (gptype h).
Proof. revert h. induction l as [|x l IH]; intros h; [reflexivity|]. cbn [map]. rewrite !last_cons_default. apply IH. Qed.

Lemma quadratic_once ped ped' dbg dbg' root (g g' : glif PD PL) e :
  read_element L pd0 P ped root = Ok g -> (exists ce, In ce (contours_in root) /\ starts_quadratic ce) ->
  glif_xml L P dbg g = Ok e -> read_element L pd0 P ped' e = Ok g' -> glif_xml L P dbg' g' = Panic.
Proof.
  intros Hr (ce & Hce & f & tl & Ef & Et) Hw Hr'.
  destruct (contours_read L pd0 P ped root g Hr) as [_ H2].
  assert (exists c g0 t, In c (contours g) /\ c <> [] /\ gptype g0 = QCurve /\
     (forall x, In x (g0 :: t) -> gptype x <> Undefined /\ gptype x <> QClose) /\ contour_of_glif (PD:=PD) L (g0 :: t) = Ok c) as (c & g0 & t & Hin & Hne & Hq & Hall & Hc).
  { assert (forall gc, Forall2 (point_says L) (named "point" ce) gc -> exists g0 t, gc = g0 :: t /\ gptype g0 = QCurve /\
       forall x, In x (g0 :: t) -> gptype x <> Undefined /\ gptype x <> QClose) as Hgc.
    { intros gc H. rewrite Ef in H. inversion H as [|? g0 ? t A B]; subst. exists g0, t. split; [reflexivity|]. split.
      - destruct A as (_ & _ & A & _). rewrite Et in A. eapply type_named_inj; [exact A|constructor].
      - intros x Hx. assert (exists y, point_says L y x) as (y & Hy).
        { clear - H Hx. induction H as [|? ? ? ? A B IH]; [destruct Hx|]. destruct Hx as [<-|Hx]; eauto. }
        exact (proj1 (says_type L y x Hy)). }
    destruct (H2 ce Hce) as [(gc & A & B)|(c & A & B & gc & C & D)].
    - exfalso. destruct (Hgc gc A) as (g0 & t & -> & Hq & _). destruct B as [B|(g1 & t1 & E & B)]; [discriminate|]. injection E as <- <-.
      rewrite Hq in B. destruct B as [[B|B]|[B _]]; discriminate.
    - destruct (Hgc gc C) as (g0 & t & -> & Hq & Hx). exists c, g0, t. auto. }
  apply glif_xml_written in Hw as (_ & _ & _ & _ & _ & _ & Hw & _). unfold outline_written in Hw.
  change (match g_outline g with Some cs => cs | None => [] end) with (contours g) in Hw. cbv zeta in Hw.
  destruct Hw as [(Hw & _)|(_ & oe & Eo & _ & _ & Hw & _)]; [exfalso; change (contours g = []) in Hw; rewrite Hw in Hin; destruct Hin|].
  assert (Forall2 (contour_written L dbg) (contours g) (named "contour" oe)) as Hw1 by exact Hw. clear Hw. rename Hw1 into Hw.
  assert (exists ce2, In ce2 (contours_in e) /\ contour_written L dbg c ce2) as (ce2 & Hce2 & _ & _ & gps & Hg & Hp).
  { unfold contours_in. rewrite Eo. clear - Hw Hin. induction Hw as [|x y l m A B IH]; [destruct Hin|]. destruct Hin as [->|Hin]; [exists y; split; [now left|exact A]|].
    destruct (IH Hin) as (z & Hz & Hz'). exists z. split; [now right|exact Hz']. }
  replace (3 * List.length c + 3) with (S (3 * List.length c + 2)) in Hg by lia.
  destruct (quad_again dbg _ g0 t c gps Hq Hall Hc Hg) as (h & m & -> & Eh & Ho & Hq' & Hn).
  assert (Forall2 (fun e t => type_named (get e "type") t) (named "point" ce2) (map gptype (h :: m))) as Hty.
  { assert (forall x, In x (h :: m) -> gptype x <> Undefined /\ gptype x <> QClose) as Hx.
    { intros x Hx. destruct (into_glifpoints_in L dbg _ c _ x Hg Hx) as (q & Hq2 & [-> | (w & ->)]).
      - rewrite (read_quadratic L g0 t (last t g0) (or_introl Hq) eq_refl) in Hc. injection Hc as <-. destruct (offcurve (last t g0)) eqn:Eo2.
        + rewrite Eh in Ho. unfold offcurve in Eo2. destruct (gptype (last t g0)); congruence || discriminate.
        + rewrite app_nil_r in Hq2. change (In q (with_implied (half (PD:=PD) L) (g0 :: t))) in Hq2. apply with_implied_in in Hq2 as [(g1 & H1 & ->)|Hx2]; [exact (Hall g1 H1)|cbn; rewrite Hx2; split; discriminate].
      - unfold gp_from_handle. destruct (handle_or_colocated q w _ _); split; discriminate. }
    clear - Hp Hx. induction Hp as [|x y l l' A B IH]; constructor.
    - destruct (Hx x (or_introl eq_refl)). now apply (written_type x y).
    - apply IH. intros z Hz. apply Hx. now right. }
  destruct (contours_read L pd0 P ped' e g' Hr') as [_ H2'].
  assert (forall gc2, Forall2 (point_says L) (named "point" ce2) gc2 -> map gptype gc2 = map gptype (h :: m)) as Hgc2.
  { intros gc2 H. apply says_types in H. eapply types_unique; eassumption. }
  assert (gptype h = QCurve \/ gptype h <> QCurve) as [E|E] by (destruct (gptype h); (now left) || (right; discriminate)).
  - (* the second saving panics *)
    assert (exists ce, In ce (contours_in e) /\ loose_end ce) as Hl.
    { exists ce2. split; [exact Hce2|]. destruct (named "point" ce2) as [|f2 t2] eqn:E2; inversion Hty as [|? ? ? ? A B]; subst.
      exists f2, t2. split; [exact E2|]. split; [rewrite E in A; now inversion A|].
      specialize (Hq' E). rewrite last_type in Hq'. rewrite <- Hq'. clear - A B.
      revert f2 A. generalize (gptype h). induction B as [|x y l l' A' B IH]; intros t0 f2 A; [exact A|]. rewrite !last_cons_default. now apply IH. }
    destruct (which_saved L pd0 P dbg' ped' e g' Hr') as [[_ X]|[X _]]; [exact X|contradiction].
  - (* the second reading panics *)
    exfalso. specialize (Hn E).
    assert (forall gc2, Forall2 (point_says L) (named "point" ce2) gc2 -> unreadable gc2 /\ ~ (gc2 = [] \/ unread gc2)) as Hun.
    { intros gc2 H. pose proof (Hgc2 gc2 H) as Hm. destruct gc2 as [|h2 m2]; [discriminate|]. injection Hm as Hh Hm.
      destruct Hn as (x & Hx & Ex). assert (exists x2, In x2 m2 /\ gptype x2 = QCurve) as (x2 & Hx2 & Ex2).
      { apply (in_map gptype) in Hx. rewrite <- Hm in Hx. apply in_map_iff in Hx as (x2 & A & B). exists x2. split; [exact B|congruence]. }
      assert (exists y, point_says L y h2) as (y & Hy) by (inversion H; eauto). destruct (proj1 (says_type L y h2 Hy)) as [N1 N2].
      split.
      - right. exists h2, m2. split; [reflexivity|]. split; [|eauto]. rewrite <- Hh in Ho, E. destruct (gptype h2); auto; congruence.
      - intros [X|(g1 & t1 & X & Y)]; [discriminate|]. injection X as <- <-. rewrite <- Hh in Ho. destruct Y as [[Y|Y]|[_ Y]]; try congruence.
        destruct (Y x2 Hx2) as [Z|[Z|Z]]; congruence. }
    destruct (H2' ce2 Hce2) as [(gc & A & B)|(c2 & _ & _ & gc & A & B)].
    + now apply (proj2 (Hun gc A)).
    + rewrite (unreadable_panics gc (proj1 (Hun gc A))) in B. discriminate.
Qed.
End Again.
