(** Debug and release builds. *)
Require Import Coq.Strings.String Coq.Lists.List Coq.NArith.NArith Coq.Bool.Bool Coq.micromega.Lia.
Require Import Verif.Model.Base Verif.Model.Text Verif.Model.Float Verif.Model.Num Verif.Model.Point Verif.Model.Contour Verif.Model.Reverse Verif.Model.Conv Verif.Model.Builders Verif.Model.Xml Verif.Model.Parts Verif.Model.Write Verif.Model.Skia Verif.Model.Interop
  Verif.Spec.ProfileSpec.
Import ListNotations.

Lemma asserts_refl {A} (r : res A) : asserts r r.
Proof. now right. Qed.
Lemma asserts_bind {A B} (r r' : res A) (f f' : A -> res B) : asserts r r' -> (forall a, asserts (f a) (f' a)) -> asserts (bind r f) (bind r' f').
Proof. intros [->| ->] H; [now left|]. destruct r' as [a| |]; [apply H|now right|now right]. Qed.
Lemma asserts_mapM {A B} (f f' : A -> res B) : (forall a, asserts (f a) (f' a)) -> forall l, asserts (mapM f l) (mapM f' l).
Proof.
  intros H. induction l as [|a l IH]; [now right|]. cbn [mapM]. apply asserts_bind; [apply H|]. intros b. apply asserts_bind; [exact IH|]. intros bs. now right.
Qed.
Lemma asserts_if {A} (b : bool) (r r' : res A) : asserts r r' -> asserts (if b then Panic else r) r'.
Proof. destruct b; [now left|easy]. Qed.

Section Profile.
Context (L : numlib) {PD PL : Type} (P : plistlib PL).

Lemma cleanup_profile c : asserts (cleanup_offcurves true c) (cleanup_offcurves false c).
Proof.
  unfold cleanup_offcurves. cbn [andb]. apply asserts_if, asserts_bind; [now right|]. intros kss. apply asserts_if. now right.
Qed.
Lemma into_profile fuel (c : contour PD) : into_glifpoints L true fuel c = Some Panic \/ into_glifpoints L true fuel c = into_glifpoints L false fuel c.
Proof. unfold into_glifpoints. destruct c as [|p c]; [now left|]. destruct (cleanup_profile (interleave3 (rotate_right1 (map (fun p => gp_from_handle L p WA) (p :: c))) (map (fun p => gp_from_handle L p WB) (p :: c)) (map (gp_of_point L) (p :: c)))) as [->| ->]; [now left|now right]. Qed.
Lemma gp_xml_profile g : asserts (gp_xml L true g) (gp_xml L false g).
Proof. unfold gp_xml. cbn [andb]. destruct (gsmooth g); [apply asserts_if|]; now right. Qed.
Lemma contour_xml_profile (c : contour PD) : asserts (contour_xml L true c) (contour_xml L false c).
Proof.
  unfold contour_xml. destruct (into_profile (3 * length c + 3) c) as [->| ->]; [now left|].
  destruct (into_glifpoints L false (3 * length c + 3) c) as [[gps| |]|]; try now right. unfold gcontour_xml. apply asserts_bind; [apply asserts_mapM, gp_xml_profile|]. now right.
Qed.
Lemma glif_xml_profile (g : glif PD PL) : asserts (glif_xml L P true g) (glif_xml L P false g).
Proof.
  unfold glif_xml. cbv zeta. apply asserts_bind; [|now right]. unfold outline_children. destruct (g_outline g); [|now right].
  apply asserts_bind; [apply asserts_mapM, contour_xml_profile|now right].
Qed.
Lemma reversed_profile (c : contour PD) : asserts (to_reversed true c) (to_reversed false c).
Proof.
  unfold to_reversed. destruct c as [|p c]; [now left|]. cbv zeta. match goal with |- asserts (if ?b then _ else _) _ => destruct b; [|now right] end.
  apply asserts_bind; [now right|]. intros h. destruct (_ || _); [|now right]. do 4 (apply asserts_bind; [now right|]; intros ?). apply asserts_if. now right.
Qed.
Lemma split_step_profile st e : asserts (sk_split_step true st e) (sk_split_step false st e).
Proof.
  destruct st as [o c], e as [t pts w|]; cbn [sk_split_step andb]; [now right|]. destruct c as [|[[t pts] w] rest]; [now left|]. apply asserts_if. now right.
Qed.
Lemma split_loop_profile l : forall st, asserts (sk_split_loop true st l) (sk_split_loop false st l).
Proof. induction l as [|e l IH]; intros st; cbn [sk_split_loop]; [now right|]. apply asserts_bind; [apply split_step_profile|exact IH]. Qed.
Lemma from_step_profile skc (c : contour PD) i : asserts (from_step true skc c i) (from_step false skc c i).
Proof.
  unfold from_step. apply asserts_bind; [now right|]. intros first. apply asserts_bind; [now right|]. intros [[ty pts] w]. cbn [andb]. apply asserts_if. now right.
Qed.
Lemma from_loop_profile skc is : forall c : contour PD, asserts (from_loop true skc c is) (from_loop false skc c is).
Proof. induction is as [|i is IH]; intros c; cbn [from_loop]; [now right|]. apply asserts_bind; [apply from_step_profile|exact IH]. Qed.
Lemma from_skia_profile conic p : asserts (from_skia_path (PD := PD) conic true p) (from_skia_path conic false p).
Proof.
  unfold from_skia_path. apply asserts_bind.
  { unfold split_skia_path. apply asserts_bind; [apply split_loop_profile|]. now right. }
  intros o. apply asserts_bind.
  { unfold conics_to_cubics. apply asserts_bind; [|now right]. apply asserts_mapM. intros c. apply asserts_mapM. intros [[ty pts] [w|]]; cbn [conic_points andb]; [apply asserts_if|]; now right. }
  intros o'. unfold from_skoutline. apply asserts_mapM. intros skc. unfold from_skcontour. apply asserts_bind; [now right|]. intros _. apply asserts_bind; [apply from_loop_profile|]. now right.
Qed.
Lemma which_char_profile c : asserts (which_of_char true c) (which_of_char false c).
Proof. unfold which_of_char. cbn [andb]. destruct (existsb _ _); [now right|]. destruct (existsb _ _); [now right|]. apply asserts_if. now right. Qed.
Lemma which_str_profile s : asserts (which_from_str true s) (which_from_str false s).
Proof. unfold which_from_str. cbn [andb]. apply asserts_if. destruct (trim_start s); [now right|]. apply asserts_bind; [apply which_char_profile|]. now right. Qed.
End Profile.
