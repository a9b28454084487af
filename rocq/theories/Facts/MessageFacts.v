(** Errors with the same message. *)
Require Import Coq.Strings.String Coq.Strings.Ascii Coq.Lists.List Coq.NArith.NArith Coq.Arith.Arith Coq.Bool.Bool Coq.micromega.Lia.
Require Import Verif.Model.Base Verif.Model.Text Verif.Model.Message Verif.Spec.TextSpec Verif.Spec.MessageSpec Verif.Facts.TextFacts.
Import ListNotations.
Local Open Scope list_scope.

(** Two texts that differ at some place both have. *)
Fixpoint clash (a b : str) : bool :=
  match a, b with x :: a, y :: b => if N.eqb x y then clash a b else true | _, _ => false end.
Lemma clash_neq a : forall b r r', clash a b = true -> a ++ r <> b ++ r'.
Proof.
  induction a as [|x a IH]; intros [|y b] r r' C H; try discriminate. cbn in C, H. injection H as -> H.
  rewrite N.eqb_refl in C. now apply (IH b r r').
Qed.

Lemma lit_inj s : forall s', lit s = lit s' -> s = s'.
Proof.
  unfold lit. induction s as [|a s IH]; intros [|a' s'] H; try discriminate; [reflexivity|].
  cbn in H. injection H as H1 H2. rewrite <- (ascii_N_embedding a), H1, ascii_N_embedding. f_equal. now apply IH.
Qed.

Lemma show_dec_inj n m : show_dec n = show_dec m -> n = m.
Proof.
  intros H. pose proof (show_uint_val 10 n ltac:(lia) ltac:(lia)) as A. pose proof (show_uint_val 10 m ltac:(lia) ltac:(lia)) as B.
  unfold show_dec in H. rewrite H in A. congruence.
Qed.
Lemma show_nat_inj n m : show_nat n = show_nat m -> n = m.
Proof. intros H. apply show_dec_inj in H. lia. Qed.
Lemma show_nat_chars n c : In c (show_nat n) -> (48 <= c <= 57)%N.
Proof. apply show_dec_chars. Qed.

(** A run of characters of one sort ends where another sort begins. *)
Lemma run_split (P : N -> Prop) a : forall b x y r r', (forall c, In c a -> P c) -> (forall c, In c b -> P c) ->
  ~ P x -> ~ P y -> a ++ x :: r = b ++ y :: r' -> a = b /\ x :: r = y :: r'.
Proof.
  induction a as [|c a IH]; intros [|d b] x y r r' Ha Hb X Y H; cbn in H.
  - now split.
  - injection H as -> H. exfalso. apply X, Hb. now left.
  - injection H as -> H. exfalso. apply Y, Ha. now left.
  - injection H as -> H. destruct (IH b x y r r') as [-> E]; auto; intros z Z; [apply Ha|apply Hb]; now right.
Qed.
Lemma nat_then n m s s' x y : (x < 48 \/ 57 < x)%N -> (y < 48 \/ 57 < y)%N ->
  show_nat n ++ x :: s = show_nat m ++ y :: s' -> n = m /\ x :: s = y :: s'.
Proof.
  intros X Y H. apply (run_split (fun c => 48 <= c <= 57)%N) in H as [H K]; [|apply show_nat_chars|apply show_nat_chars|lia|lia].
  split; [now apply show_nat_inj|assumption].
Qed.

Lemma lower_hex_val c d : map ascii_lower (show_hex c) = map ascii_lower (show_hex d) -> c = d.
Proof.
  intros H. assert (E : show_hex c = show_hex d).
  { assert (K : forall a b : str, (forall x, In x a -> is_digit_char x) -> (forall x, In x b -> is_digit_char x) ->
      map ascii_lower a = map ascii_lower b -> a = b).
    { induction a as [|x a IH]; intros [|y b] A B E; try discriminate; [reflexivity|]. cbn in E. injection E as E1 E2.
      rewrite (IH b); auto; [|intros z Z; apply A; now right|intros z Z; apply B; now right]. f_equal.
      specialize (A x (or_introl eq_refl)). specialize (B y (or_introl eq_refl)). unfold is_digit_char in A, B.
      unfold ascii_lower in E1. destruct (N.leb_spec 65 x), (N.leb_spec x 90), (N.leb_spec 65 y), (N.leb_spec y 90); cbn [andb] in E1; lia. }
    apply K; auto; intros x; apply show_uint_chars; lia. }
  pose proof (show_uint_val 16 c ltac:(lia) ltac:(lia)) as A. pose proof (show_uint_val 16 d ltac:(lia) ltac:(lia)) as B.
  unfold show_hex in E. rewrite E in A. congruence.
Qed.
Lemma lower_hex_chars c x : In x (map ascii_lower (show_hex c)) -> x <> 125%N /\ x <> 39%N.
Proof.
  intros H. apply in_map_iff in H as (y & <- & Y). apply show_uint_chars in Y; [|lia|lia]. unfold is_digit_char in Y.
  unfold ascii_lower. destruct (N.leb_spec 65 y), (N.leb_spec y 90); cbn [andb]; lia.
Qed.
Lemma denotes_lower s n : denotes 16 s n -> denotes 16 (map ascii_lower s) n.
Proof.
  assert (K : forall c d, is_digit_of 16 c d -> is_digit_of 16 (ascii_lower c) d).
  { intros c d [L H]. split; [exact L|]. left.
    assert (D : In (N.to_nat d) (seq 0 16)) by (apply in_seq; lia). revert H. generalize (N.to_nat d) D. clear.
    intros k D H. cbn in D. repeat (destruct D as [<-|D]; [cbn in H |- *; destruct H as [H|H]; injection H as <-; reflexivity|]). contradiction. }
  induction 1 as [c d H|s n c d H IH D]; [constructor; now apply K|]. rewrite map_app. constructor; [assumption|now apply K].
Qed.
(** The escape of a character and what follows it. *)
Lemma char_debug_then c d r r' : char_debug c ++ r = char_debug d ++ r' -> c = d /\ r = r'.
Proof.
  unfold char_debug. intros H. rewrite <- !app_assoc in H. apply app_inv_head in H.
  destruct (N.eqb_spec c 0) as [->|C0]; [|destruct (N.eqb_spec c 9) as [->|C1]; [|destruct (N.eqb_spec c 10) as [->|C2]; [|destruct (N.eqb_spec c 13) as [->|C3]]]];
  (destruct (N.eqb_spec d 0) as [->|D0]; [|destruct (N.eqb_spec d 9) as [->|D1]; [|destruct (N.eqb_spec d 10) as [->|D2]; [|destruct (N.eqb_spec d 13) as [->|D3]]]]);
  rewrite <- ?app_assoc in H;
  try (exfalso; revert H; apply clash_neq; reflexivity);
  try (split; [reflexivity|]; now repeat (apply app_inv_head in H)).
  apply app_inv_head in H.
  change (lit "}" ++ ?x) with (125%N :: x) in H. cbn [app] in H.
  apply (run_split (fun x => x <> 125%N /\ x <> 39%N)) in H as [H K]; [|apply lower_hex_chars|apply lower_hex_chars|tauto|tauto].
  apply lower_hex_val in H. split; [assumption|]. now injection K.
Qed.

Definition opening (e : err) : str := lit
  match e with
  | EFileIo => "glifparser error: System error when loading glif file: "
  | EOutlineBadPointType _ _ _ => "glifparser error: Bad point type "
  | EContourBadPointType _ _ => "glifparser error: Bad point type "
  | EFilenameNotSet _ => "glifparser error: Glyph filename not set: "
  | EFilenameInsane _ => "glifparser error: Glyph filename not sane: "
  | ENotUtf8 => "glifparser error: Glyph not utf-8"
  | ECyclical _ _ _ => "glifparser error: Glyph components are cyclical: "
  | ELib => "glifparser error: Glif <lib> invalid"
  | EXmlParse | EXmlWrite => "glifparser error: XML error: "
  | EPedantic _ => "glifparser error: XML error (requested pedantry, would not normally be an error): "
  | EInput _ => "glifparser error: Glif format spec error: "
  | EImageNotLoaded => "glifparser error: Tried to access data for image whose data hasn't been loaded"
  | EImageNotPNG => "glifparser error: Image not formatted as PNG."
  | EImageNotDecodable => "glifparser error: Image not decodable"
  | EImageIo => "glifparser error: System error when loading image: "
  | EColorNotRGBA => "glifparser error: Color not RGBA"
  | ETypeConversion _ _ => "glifparser error: Type conversion error: "
  | EIdxOutOfBounds _ _ => "glifparser error: The point index "
  | ELenOne => "glifparser error: On a contour of length one, there's no previous/next point"
  | ELenZero => "glifparser error: On an empty invalid contour (len == 0), there's no previous/next point"
  | ENoPrevious _ => "glifparser error: Asked for previous index of 0 on an open contour (len "
  | ENoNext _ => "glifparser error: Asked for next index of last point, "
  | EControlChar _ _ => "String has control character `"
  | EStrLenZero => "String is zero-length"
  | EMoreContoursThanOps => "Mismatch while upgrading contour ops: more contours"
  | EMoreOpsThanContours => "Mismatch while upgrading contour ops: more contour "
  | EMoreLayersThanVecOps => "Mismatch while upgrading contour ops: more la"
  | EMoreVecOpsThanLayers => "Mismatch while upgrading contour ops: more li"
  end.
Definition closing (d : str) (e : err) : str := skipn (length (opening e)) (message d e).
Lemma message_split d e : message d e = opening e ++ closing d e.
Proof. unfold closing. destruct e; reflexivity. Qed.

Lemma type_split ty ty' v v' : In ty ["JoinType"; "CapType"; "InterpolationType"]%string ->
  In ty' ["JoinType"; "CapType"; "InterpolationType"]%string ->
  v ++ lit " not in " ++ lit ty = v' ++ lit " not in " ++ lit ty' -> ty = ty' /\ v = v'.
Proof.
  intros H H' E. apply (f_equal (@rev N)) in E. rewrite !rev_app_distr in E. rewrite <- !app_assoc in E.
  assert (ty = ty').
  { destruct H as [<-|[<-|[<-|[]]]]; destruct H' as [<-|[<-|[<-|[]]]]; try reflexivity;
      exfalso; revert E; rewrite !app_assoc; apply clash_neq; vm_compute; reflexivity. }
  subst ty'. split; [reflexivity|]. do 2 apply app_inv_head in E. apply (f_equal (@rev N)) in E. now rewrite !rev_involutive in E.
Qed.

Lemma ptype_then t t' r r' : lit (ptype_debug t) ++ 32%N :: r = lit (ptype_debug t') ++ 32%N :: r' -> t = t' /\ r = r'.
Proof.
  intros H. assert (C : forall p x, In x (lit (ptype_debug p)) -> x <> 32%N).
  { intros p x. destruct p; vm_compute; intuition congruence. }
  apply (run_split (fun x => x <> 32%N)) in H as [H K]; [|intros c; apply C|intros c; apply C|tauto|tauto]. split; [|now injection K].
  apply lit_inj in H. clear - H. destruct t, t'; (reflexivity || discriminate).
Qed.

Lemma same_message d d' e e' : made e -> made e' -> message d e = message d' e' ->
  (e = e' \/ (about_xml e /\ about_xml e') \/ (about_cycles e /\ about_cycles e')) /\ (from_elsewhere e -> d = d').
Proof.
  intros M M' H.
  assert (K : clash (opening e) (opening e') = false).
  { destruct (clash (opening e) (opening e')) eqn:C; [|reflexivity]. exfalso. rewrite !message_split in H. revert H. now apply clash_neq. }
  destruct e; destruct e'; try (vm_compute in K; discriminate K); clear K;
    try (split; [now left|]; intros [F|[F|[F|F]]]; discriminate);
    unfold message, report in H; cbn [more_than] in H; try apply app_inv_head in H; try apply app_inv_head in H.
  all: split; [|try (intros [F|[F|[F|F]]]; discriminate F); try (intros _; exact H)].
  all: try (now left); try (right; left; split; unfold about_xml; tauto); try (right; right; split; unfold about_cycles; eauto; fail).
  - change (lit " in outline @(" ++ ?x) with (32%N :: lit "in outline @(" ++ x) in H. apply ptype_then in H as [-> H].
    apply app_inv_head in H. change (lit ", " ++ ?x) with (44%N :: 32%N :: x) in H. apply nat_then in H as [-> H]; [|lia|lia].
    injection H as H. change (lit "))") with [41%N; 41%N] in H. apply nat_then in H as [-> _]; [|lia|lia]. now left.
  - exfalso. change (lit " in outline @(" ++ ?x) with (32%N :: lit "in outline @(" ++ x) in H.
    change (lit " in contour @" ++ ?x) with (32%N :: lit "in contour @" ++ x) in H. apply ptype_then in H as [_ H].
    revert H. now apply clash_neq.
  - exfalso. change (lit " in outline @(" ++ ?x) with (32%N :: lit "in outline @(" ++ x) in H.
    change (lit " in contour @" ++ ?x) with (32%N :: lit "in contour @" ++ x) in H. apply ptype_then in H as [_ H].
    revert H. now apply clash_neq.
  - change (lit " in contour @" ++ ?x) with (32%N :: lit "in contour @" ++ x) in H. apply ptype_then in H as [-> H].
    apply app_inv_head in H. change (lit ")") with [41%N] in H. apply nat_then in H as [-> _]; [|lia|lia]. now left.
  - subst. now left.
  - apply lit_inj in H as ->. now left.
  - apply lit_inj in H as ->. now left.
  - apply lit_inj in H as ->. now left.
  - apply type_split in H as [-> ->]; [|exact M|exact M']. now left.
  - change (lit " is out of bounds as self.len() == " ++ ?x) with (32%N :: lit "is out of bounds as self.len() == " ++ x) in H.
    apply nat_then in H as [-> H]; [|lia|lia]. injection H as H. apply show_nat_inj in H as ->. now left.
  - change (lit ")") with [41%N] in H. apply nat_then in H as [-> _]; [|lia|lia]. now left.
  - change (lit ", on an open contour") with (44%N :: lit " on an open contour") in H. apply nat_then in H as [-> _]; [|lia|lia]. now left.
  - apply char_debug_then in H as [-> H]. apply app_inv_head in H. apply show_nat_inj in H as ->. now left.
Qed.
