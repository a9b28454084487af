(** Exactly which saved MFEK glyphs are loaded again. *)
Require Import Coq.Strings.String Coq.Lists.List Coq.NArith.NArith Coq.ZArith.ZArith Coq.Floats.SpecFloat Coq.micromega.Lia.
Require Import Verif.Model.Base Verif.Model.Text Verif.Model.Float Verif.Model.Num Verif.Model.RustNum Verif.Model.Point
  Verif.Model.Contour Verif.Model.Strings Verif.Model.Names Verif.Model.Color Verif.Model.Xml Verif.Model.Parts Verif.Model.Component
  Verif.Model.Mpoint Verif.Model.Mfek Verif.Model.Serde Verif.Spec.TextSpec Verif.Spec.EqualMfekSpec Verif.Spec.SerdeSpec Verif.Spec.SerdeMfekSpec
  Verif.Facts.SerdeFacts Verif.Facts.SerdeMfekFacts Verif.Props.PropsSerde.
Import ListNotations.
Local Open Scope string_scope.

(** C94: what can be saved but holds a float that is not finite, anywhere, in a pattern or in the history, cannot be
    loaded. *)
Theorem C94_not_finite : forall (PD PL : Type) (S : serdelib PD PL) (m : mglif PD (history PD)) (j : json) (x : spec_float),
  (forall x, is_finite x = false -> iof_de S (iof_en S (IFloat x)) = None) ->
  en_mfekglif S m = Some j -> float_in_mfek x m -> is_finite x = false -> de_mfekglif S j = None.
Proof.
  intros PD PL S m j x N E H F. destruct (de_mfekglif S j) as [m'|] eqn:D; [|reflexivity].
  pose proof (back_mfek S N m j m' x E D H). congruence.
Qed.
Print Assumptions C94_not_finite.

(** C94: exactly what is loaded. If all floats are finite it is the glyph without the file names and without point
    data that are written like no data; otherwise nothing is loaded. *)
Theorem C94_exact : forall (PD PL : Type) (S : serdelib PD PL) (m : mglif PD (history PD)) (j : json),
  faithful S -> (forall x, is_finite x = false -> iof_de S (iof_en S (IFloat x)) = None) -> typed_mfek m -> en_mfekglif S m = Some j ->
  ((forall x, float_in_mfek x m -> is_finite x = true) -> de_mfekglif S j = Some (mfekglif_saved (mfek_without_null S m))) /\
  ((exists x, float_in_mfek x m /\ is_finite x = false) -> de_mfekglif S j = None).
Proof.
  intros PD PL S m j K N T E. split.
  - intros F. apply (rt_mfekglif S K); [|now rewrite mfek_written]. now apply mfek_kept.
  - intros (x & H & F). now apply (C94_not_finite PD PL S m j x).
Qed.
Print Assumptions C94_exact.

(** C94: the same for one contour, which loses nothing but such data. *)
Theorem C94_contour_exact : forall (PD PL : Type) (S : serdelib PD PL) (c : mcontour PD) (j : json),
  faithful S -> typed_contour c -> en_mcontour S c = Some j ->
  ((forall x, float_in_contour x c -> is_finite x = true) -> de_mcontour S j = Some (contour_without_null S c)) /\
  ((exists x, float_in_contour x c /\ is_finite x = false) -> de_mcontour S j = None).
Proof.
  intros PD PL S c j K T E. split.
  - intros F. apply (rt_mcontour S K); [|now rewrite contour_written]. now apply contour_kept.
  - intros (x & H & F). destruct (de_mcontour S j) as [c'|] eqn:D; [|reflexivity].
    pose proof (back_contour S c j c' x E D H). congruence.
Qed.
Print Assumptions C94_contour_exact.

Definition null_contour (x : f32) : mcontour unit :=
  MC (Quad [mkQ (fl "1") (fl "2") (At (fl "0") (fl "0")) None QCurve false (Some tt)])
     (Some (OpPap (mkPap _ [MC (Hyper [mkH (fl "1") x Colocated (At (fl "3") (fl "4.5")) HLine true (Some tt)] true) None]
        PRepeated (SubSimple 2) true StretchSpacing (f64_of_Z 3) true (f64_of_Z (-1)) (f64_of_Z 2) (f64_of_Z 1, f64_of_Z 4)
        true (CullErase (f64_of_Z 1) (f64_of_Z 2)) false true false true false))).
Definition null_layer (x : f32) : layer unit :=
  mkLayer (lit "Layer 0") true (Some (mkColor (IInt 1) (IInt 0) (IInt 0) (IFloat (fl "0.5")))) [null_contour x] (Some LUnion) [].
Definition null_mfek (x : f32) : mglif unit (history unit) :=
  mkMG _ [null_layer (fl "1")]
    [HEntry (lit "moved") (Some 0%N) None (Some 3%N) [] (Some [(0, 1); (0, 2)]%N)
       (mkMG _ [null_layer x] [] [] (mkComponents (lit "a") [] []) None None [] None [] (lit "a") None None)]
    [] (mkComponents (lit "a") [] []) None None [] None [] (lit "a") None (Some (path_of (lit "a.glif"))).
Lemma null_contour_typed x : valid32 x = true -> typed_contour (null_contour x).
Proof.
  intros V. constructor.
  - intros y H. repeat (destruct H as [<-|H]; [vm_compute; reflexivity|]). destruct H.
  - discriminate.
  - intros p n [= <-] [= <-]. vm_compute. reflexivity.
  - intros p c [= <-] [<-|[]]. constructor; try discriminate.
    intros y H. destruct H as [<-|[<-|H]]; [vm_compute; reflexivity|exact V|].
    repeat (destruct H as [<-|H]; [vm_compute; reflexivity|]). destruct H.
Qed.
Lemma null_layer_typed x : valid32 x = true -> typed_layer (null_layer x).
Proof.
  intros V. split; [|split].
  - intros y H. repeat (destruct H as [H|H]; [first [discriminate H|injection H as <-; vm_compute; reflexivity]|]). destruct H.
  - constructor; [|constructor]. now apply null_contour_typed.
  - constructor.
Qed.
Lemma null_mfek_typed x : valid32 x = true -> typed_mfek (null_mfek x).
Proof.
  assert (B : forall h f (l : list (layer unit)), Forall typed_layer l ->
    typed_now (mkMG (history unit) l h [] (mkComponents (lit "a") [] []) None None [] None [] (lit "a") None f)).
  { intros h f l T. repeat split; try assumption; try (intros; discriminate); try (intros ? []); try constructor; contradiction. }
  intros V. split.
  - apply B. constructor; [|constructor]. apply null_layer_typed. vm_compute. reflexivity.
  - intros h [<-|[]]. constructor.
    + intros n [= <-]. vm_compute. reflexivity.
    + discriminate.
    + intros n [= <-]. vm_compute. reflexivity.
    + constructor.
    + intros s [= <-]. split.
      * repeat constructor; cbn [In]; intros H; repeat (destruct H as [H|H]; [discriminate H|]); destruct H.
      * repeat constructor; vm_compute; reflexivity.
    + apply B. constructor; [|constructor]. now apply null_layer_typed.
    + intros h [].
Qed.
(** A glyph with data lost in a pattern in the history; and one with an infinite coordinate there. *)
Example C94_exact_case : exists j,
  faithful unit_lib /\ typed_mfek (null_mfek (fl "7")) /\ en_mfekglif unit_lib (null_mfek (fl "7")) = Some j /\
  (forall x, float_in_mfek x (null_mfek (fl "7")) -> is_finite x = true) /\
  mfek_without_null unit_lib (null_mfek (fl "7")) <> null_mfek (fl "7").
Proof.
  assert (N : forall x, is_finite x = false -> iof_de unit_lib (iof_en unit_lib (IFloat x)) = None).
  { intros x H. cbn. now rewrite H. }
  assert (exists j m', en_mfekglif unit_lib (null_mfek (fl "7")) = Some j /\ de_mfekglif unit_lib j = Some m') as (j & m' & E & D).
  { assert (C : (match en_mfekglif unit_lib (null_mfek (fl "7")) with
                 | Some j => match de_mfekglif unit_lib j with Some _ => true | None => false end | None => false end) = true)
      by (vm_compute; reflexivity).
    destruct (en_mfekglif _ _) as [j|]; [|discriminate]. exists j. destruct (de_mfekglif _ j) as [m'|]; [|discriminate]. now exists m'. }
  exists j. split; [apply unit_lib_faithful|]. split; [apply null_mfek_typed; vm_compute; reflexivity|]. split; [exact E|]. split.
  - intros x H. exact (back_mfek unit_lib N _ _ _ x E D H).
  - vm_compute. discriminate.
Qed.
Example C94_not_finite_case : exists j, en_mfekglif unit_lib (null_mfek (S754_infinity true)) = Some j /\
  typed_mfek (null_mfek (S754_infinity true)) /\ float_in_mfek (S754_infinity true) (null_mfek (S754_infinity true)) /\
  de_mfekglif unit_lib j = None.
Proof.
  assert (C : (match en_mfekglif unit_lib (null_mfek (S754_infinity true)) with
               | Some j => match de_mfekglif unit_lib j with Some _ => false | None => true end | None => false end) = true)
    by (vm_compute; reflexivity).
  destruct (en_mfekglif _ _) as [j|]; [|discriminate]. exists j. split; [reflexivity|]. split; [now apply null_mfek_typed|].
  split; [|now destruct (de_mfekglif _ j)].
  eapply float_in_past; [now left|]. eapply float_in_layer; [now left|now left|]. eapply float_in_pattern; [now left|].
  apply float_here. cbn. tauto.
Qed.
