(** Property C103: comparing MFEK glyphs. *)
Require Import Coq.Strings.String Coq.Lists.List Coq.Arith.Arith Coq.NArith.NArith Coq.ZArith.ZArith Coq.Bool.Bool Coq.Floats.SpecFloat Coq.micromega.Lia.
Require Import Verif.Model.Base Verif.Model.Text Verif.Model.Float Verif.Model.Num Verif.Model.RustNum Verif.Model.Point Verif.Model.Contour
  Verif.Model.Names Verif.Model.Color Verif.Model.Xml Verif.Model.Parts Verif.Model.Component Verif.Model.Mpoint Verif.Model.Mfek
  Verif.Model.Serde Verif.Model.Equal Verif.Model.EqualMfek
  Verif.Spec.NumSpec Verif.Spec.GlyphSpec Verif.Spec.InteropSpec Verif.Spec.SerdeSpec Verif.Spec.EqualSpec Verif.Spec.EqualMfekSpec
  Verif.Facts.EqualFacts Verif.Facts.EqualMfekFacts Verif.Props.PropsOutline Verif.Props.PropsSerde Verif.Props.PropsEqual.
Import ListNotations.
Local Open Scope string_scope.
Local Open Scope list_scope.
Local Open Scope nat_scope.

(** C103: two MFEK glyphs are equal exactly if they agree field by field, to any depth of patterns
    and histories; the sets of component names and of selected points are compared as sets. *)
Theorem C103_equal_exactly : forall (L : numlib) (PD : Type) (pd_eqb : PD -> PD -> bool) (os_eqb : osstr -> osstr -> bool)
  (a b : mglif PD (history PD)), proper_mfek a -> proper_mfek b ->
  (mfekglif_eqb L pd_eqb os_eqb a b = true <->
   same_mfek (fun i j => iof_eqb L i j = true) (fun x y => pd_eqb x y = true) (fun x y => os_eqb x y = true) a b).
Proof. intros. apply mfek_decides; try assumption; intros x y; reflexivity. Qed.
Print Assumptions C103_equal_exactly.

(** C103: the same for contours. *)
Theorem C103_contours_exactly : forall (PD : Type) (pd_eqb : PD -> PD -> bool) (a b : mcontour PD),
  mcontour_eqb pd_eqb a b = true <-> same_mcontour (fun x y => pd_eqb x y = true) a b.
Proof. intros. apply mcontour_decides. intros x y; reflexivity. Qed.
Print Assumptions C103_contours_exactly.

(** C103: an MFEK glyph equals itself exactly if no number in it or in its history is NaN. *)
Theorem C103_reflexive_exactly : forall (L : numlib) (PD : Type) (pd_eqb : PD -> PD -> bool) (os_eqb : osstr -> osstr -> bool)
  (m : mglif PD (history PD)),
  (forall i, iof_eqb L i i = true <-> i <> IFloat S754_nan) -> (forall x, pd_eqb x x = true) -> (forall x, os_eqb x x = true) ->
  proper_mfek m -> (mfekglif_eqb L pd_eqb os_eqb m m = true <-> ~ nan_in_mfek m).
Proof. intros L PD pd_eqb os_eqb m Ri Rd Ro P. rewrite C103_equal_exactly by assumption. now apply mfek_self. Qed.
Print Assumptions C103_reflexive_exactly.

(** C103: being equal does not depend on the order. *)
Theorem C103_symmetric : forall (L : numlib) (PD : Type) (pd_eqb : PD -> PD -> bool) (os_eqb : osstr -> osstr -> bool)
  (a b : mglif PD (history PD)),
  (forall i j, iof_eqb L i j = true -> iof_eqb L j i = true) ->
  (forall x y, pd_eqb x y = true -> pd_eqb y x = true) -> (forall x y, os_eqb x y = true -> os_eqb y x = true) ->
  proper_mfek a -> proper_mfek b -> mfekglif_eqb L pd_eqb os_eqb a b = true -> mfekglif_eqb L pd_eqb os_eqb b a = true.
Proof. intros L PD pd_eqb os_eqb a b Si Sd So Pa Pb. rewrite !C103_equal_exactly by assumption. now apply mfek_sym. Qed.
Print Assumptions C103_symmetric.

(** C103: two MFEK glyphs equal to a third are equal, if the integers in them are no larger than 2^24. *)
Theorem C103_transitive : forall (PD : Type) (pd_eqb : PD -> PD -> bool) (os_eqb : osstr -> osstr -> bool) (a b c : mglif PD (history PD)),
  (forall x y z, pd_eqb x y = true -> pd_eqb y z = true -> pd_eqb x z = true) ->
  (forall x y z, os_eqb x y = true -> os_eqb y z = true -> os_eqb x z = true) ->
  proper_mfek a -> proper_mfek b -> proper_mfek c ->
  (forall i, number_in_mfek i a -> small i) -> (forall i, number_in_mfek i c -> small i) ->
  mfekglif_eqb rust_num pd_eqb os_eqb a b = true -> mfekglif_eqb rust_num pd_eqb os_eqb b c = true ->
  mfekglif_eqb rust_num pd_eqb os_eqb a c = true.
Proof.
  intros PD pd_eqb os_eqb a b c Td To Pa Pb Pc Sa Sc. rewrite !C103_equal_exactly by assumption. apply mfek_trans; try assumption.
  intros i j k Hi Hk H1 H2. apply number_decides.
  apply (equal_number_trans i j k (Sa i Hi) (Sc k Hk)); now apply number_decides.
Qed.
Print Assumptions C103_transitive.

(** C103: with larger integers this is false: they may equal the same number that is no integer. *)
Definition turned (i : iof) : mglif unit (history unit) :=
  mkMG _ [] [] [] (mkComponents (lit "A") [] []) None None [mkGuideline (fl "0") (fl "0") i None None None tt] None [] (lit "A") None None.
Theorem C103_transitive_refuted : forall os_eqb,
  mfekglif_eqb rust_num any_eqb os_eqb (turned (IInt 16777216)) (turned (IFloat (fl "16777216"))) = true /\
  mfekglif_eqb rust_num any_eqb os_eqb (turned (IFloat (fl "16777216"))) (turned (IInt 16777217)) = true /\
  mfekglif_eqb rust_num any_eqb os_eqb (turned (IInt 16777216)) (turned (IInt 16777217)) = false.
Proof. intros. repeat split; vm_compute; reflexivity. Qed.
Print Assumptions C103_transitive_refuted.

(** C103: equal glyphs become equal MFEK glyphs, if the integers that place their images are no
    larger than 2^24 (the transforms of the images are computed from them). *)
Theorem C103_upgraded : forall (PD PL : Type) (pd_eqb : PD -> PD -> bool) (pl_eqb : PL -> PL -> bool)
  (el_eqb : element -> element -> bool) (os_eqb : osstr -> osstr -> bool) (a b : glif PD PL),
  proper_set a -> proper_set b ->
  Forall (fun i => proper_iof i /\ small i) (placed_numbers a) -> Forall (fun i => proper_iof i /\ small i) (placed_numbers b) ->
  glif_eqb rust_num pd_eqb pl_eqb el_eqb os_eqb a b = true ->
  mfekglif_eqb rust_num pd_eqb os_eqb (mglif_of_glif a) (mglif_of_glif b) = true.
Proof.
  intros PD PL pd_eqb pl_eqb el_eqb os_eqb a b Sa Sb Na Nb.
  rewrite (glyph_decides rust_num pd_eqb pl_eqb el_eqb os_eqb equal_number (fun x y => pd_eqb x y = true) (fun x y => pl_eqb x y = true)
    (fun x y => el_eqb x y = true) (fun x y => os_eqb x y = true) number_decides (fun x y => iff_refl _) (fun x y => iff_refl _)
    (fun x y => iff_refl _) (fun x y => iff_refl _) a b Sa Sb).
  rewrite (mfek_decides rust_num pd_eqb os_eqb equal_number (fun x y => pd_eqb x y = true) (fun x y => os_eqb x y = true)
    number_decides (fun x y => iff_refl _) (fun x y => iff_refl _)); [now apply upgrade_same| |]; (constructor; [assumption|intros ? ? ? ? ? ? ? []]).
Qed.
Print Assumptions C103_upgraded.

(** C103: of equal MFEK glyphs, if one can be made a glyph so can the other, and these are equal. *)
Theorem C103_downgraded : forall (PD PL : Type) (pd_eqb : PD -> PD -> bool) (pl_eqb : PL -> PL -> bool)
  (el_eqb : element -> element -> bool) (os_eqb : osstr -> osstr -> bool) (a b : mglif PD (history PD)) (g : glif PD PL),
  proper_mfek a -> proper_mfek b -> mfekglif_eqb rust_num pd_eqb os_eqb a b = true -> glif_of_mglif a = Ok g ->
  exists g', glif_of_mglif b = Ok g' /\ glif_eqb rust_num pd_eqb pl_eqb el_eqb os_eqb g g' = true.
Proof.
  intros PD PL pd_eqb pl_eqb el_eqb os_eqb a b g Pa Pb.
  rewrite (mfek_decides rust_num pd_eqb os_eqb equal_number (fun x y => pd_eqb x y = true) (fun x y => os_eqb x y = true)
    number_decides (fun x y => iff_refl _) (fun x y => iff_refl _)) by assumption.
  intros [S _] E.
  destruct (downgrade_same (fun x y => pd_eqb x y = true) (fun x y => pl_eqb x y = true) (fun x y => el_eqb x y = true) (fun x y => os_eqb x y = true) a b g S E)
    as (g' & E' & G).
  exists g'. split; [exact E'|].
  assert (forall (m : mglif PD (history PD)) (h : glif PD PL), proper_mfek m -> glif_of_mglif m = Ok h -> proper_set h) as Q.
  { intros m h [P _] H. unfold glif_of_mglif in H. destruct (idx (mg_layers m) 0) as [l| |]; try discriminate H. cbn [bind] in H.
    destruct (mapM _ (l_outline l)) as [o| |]; try discriminate H. injection H as <-. exact P. }
  apply (glyph_decides rust_num pd_eqb pl_eqb el_eqb os_eqb equal_number (fun x y => pd_eqb x y = true) (fun x y => pl_eqb x y = true)
    (fun x y => el_eqb x y = true) (fun x y => os_eqb x y = true) number_decides (fun x y => iff_refl _) (fun x y => iff_refl _)
    (fun x y => iff_refl _) (fun x y => iff_refl _)); eauto.
Qed.
Print Assumptions C103_downgraded.

(** C103: an MFEK glyph without NaN equals what is loaded after saving it exactly if neither it nor
    any glyph in its history has a file name. *)
Theorem C103_loaded_exactly : forall (L : numlib) (PD PL : Type) (S : serdelib PD PL) (pd_eqb : PD -> PD -> bool) (os_eqb : osstr -> osstr -> bool)
  (m : mglif PD (history PD)) (j : json),
  (forall i, iof_eqb L i i = true <-> i <> IFloat S754_nan) -> (forall x, pd_eqb x x = true) -> (forall x, os_eqb x x = true) ->
  faithful S -> mfekglif_ok S m -> proper_mfek m -> ~ nan_in_mfek m -> en_mfekglif S m = Some j ->
  exists m', de_mfekglif S j = Some m' /\ (mfekglif_eqb L pd_eqb os_eqb m m' = true <-> nameless m).
Proof.
  intros L PD PL S pd_eqb os_eqb m j Ri Rd Ro K O P N E. exists (mfekglif_saved m). split; [now apply (C94_round_trip PD PL)|]. split.
  - rewrite C103_equal_exactly by (try assumption; now apply saved_proper). apply saved_same.
  - intros H. rewrite (saved_nameless m H). now apply C103_reflexive_exactly.
Qed.
Print Assumptions C103_loaded_exactly.

(** C103 as stated is false: an MFEK glyph need not equal itself, nor what is loaded after saving it. *)
Definition same_data (a b : mfek_data) : bool :=
  Bool.eqb (md_fixed a) (md_fixed b) && Bool.eqb (md_format a) (md_format b) && Bool.eqb (md_right a) (md_right b).
Definition nan_mfek : mglif mfek_data (history mfek_data) :=
  bare_mfek "A" None [HEntry (lit "moved") None None None [] None
    (bare_mfek "A" None [] [mkLayer (lit "Layer 0") true None
       [MC (Cubic []) (Some (OpPap (ex_pattern [MC (Quad [mkQ S754_nan (fl "0") Colocated None Move false None]) None])))] None []])] [].
Theorem C103_refuted : (proper_mfek nan_mfek /\ mfekglif_eqb rust_num same_data any_eqb nan_mfek nan_mfek = false) /\
  (exists j m', en_mfekglif ex_lib (bare_mfek "A" (Some (path_of (lit "a.glif"))) [] []) = Some j /\ de_mfekglif ex_lib j = Some m' /\
     mfekglif_eqb rust_num same_data any_eqb (bare_mfek "A" (Some (path_of (lit "a.glif"))) [] []) m' = false).
Proof.
  split; [split; [|vm_compute; reflexivity]|].
  - constructor; [constructor|]. intros d li ci pi gl sel m' [E|[]]. injection E as <- <- <- <- <- <- <-. split; [discriminate|].
    constructor; [constructor|]. intros d li ci pi gl sel m' [].
  - do 2 eexists. split; [vm_compute; reflexivity|]. split; [vm_compute; reflexivity|vm_compute; reflexivity].
Qed.
Print Assumptions C103_refuted.

(** A glyph with a layer, patterns within patterns, and a history within its history. *)
Example C103_case : proper_mfek ex_mfek /\ ~ nan_in_mfek ex_mfek /\ nameless ex_mfek /\ mfekglif_ok ex_lib ex_mfek /\
  mfekglif_eqb rust_num same_data any_eqb ex_mfek ex_mfek = true /\
  mfekglif_eqb rust_num same_data any_eqb ex_mfek (bare_mfek "A" None [] [ex_layer]) = false.
Proof.
  assert (proper_mfek ex_mfek) as P.
  { constructor; [constructor|]. intros d li ci pi gl sel m' [E|[]]. injection E as <- <- <- <- <- <- <-. split.
    - intros s [= <-]. repeat constructor; cbn [In]; intros H; repeat (destruct H as [H|H]; [discriminate H|]); destruct H.
    - constructor; [constructor|]. intros d li ci pi gl sel m' [E|[]]. injection E as <- <- <- <- <- <- <-. split; [discriminate|].
      constructor; [constructor|]. intros d li ci pi gl sel m' []. }
  assert (mfekglif_eqb rust_num same_data any_eqb ex_mfek ex_mfek = true) as E by (vm_compute; reflexivity).
  split; [exact P|]. split.
  { apply (C103_reflexive_exactly rust_num _ same_data any_eqb ex_mfek); try assumption.
    - apply C102_comparison_case.
    - intros [[] [] []]; reflexivity.
    - reflexivity. }
  split.
  { constructor; [reflexivity|]. intros d li ci pi gl sel m' [X|[]]. injection X as <- <- <- <- <- <- <-.
    constructor; [reflexivity|]. intros d li ci pi gl sel m' [X|[]]. injection X as <- <- <- <- <- <- <-.
    constructor; [reflexivity|]. intros d li ci pi gl sel m' []. }
  split; [apply ex_mfek_ok|]. split; [exact E|vm_compute; reflexivity].
Qed.
(** Sets are compared as sets, zeros whatever their sign. *)
Example C103_sets_case : forall sel : list (N * N), sel = [(0, 1); (4, 2)]%N \/ sel = [(4, 2); (0, 1)]%N ->
  mfekglif_eqb rust_num same_data any_eqb
    (bare_mfek "A" None [HEntry (lit "moved") None None None [] (Some [(0, 1); (4, 2)]%N) (bare_mfek "A" None [] [])] [])
    (bare_mfek "A" None [HEntry (lit "moved") None None None [] (Some sel) (bare_mfek "A" None [] [])] []) = true.
Proof. intros sel [-> | ->]; vm_compute; reflexivity. Qed.
(** A glyph with an image is meant by the theorem about conversion. *)
Example C103_upgraded_case : exists a b : glif unit unit, proper_set a /\ proper_set b /\
  Forall (fun i => proper_iof i /\ small i) (placed_numbers a) /\ Forall (fun i => proper_iof i /\ small i) (placed_numbers b) /\ a <> b /\
  glif_eqb rust_num any_eqb any_eqb any_eqb any_eqb a b = true /\
  mfekglif_eqb rust_num any_eqb any_eqb (mglif_of_glif a) (mglif_of_glif b) = true.
Proof.
  set (g := fun x => mkGlif (PD := unit) (PL := unit) None [] (mkComponents (lit "A") [] []) []
    [mkImage (Utf8 (lit "a.png")) (mkMatrix (IInt 1) (IInt 0) (IInt 0) (IInt 1) x (IFloat (fl "2.5"))) None None] None [] (lit "A") None None LNone).
  exists (g (IInt 7)), (g (IFloat (fl "7"))). split; [constructor|]. split; [constructor|].
  split; [|split; [|split; [|split; [vm_compute; reflexivity|vm_compute; reflexivity]]]].
  - repeat (apply Forall_cons; [split; [vm_compute; try reflexivity; split; discriminate|vm_compute; try exact I; discriminate]|]). apply Forall_nil.
  - repeat (apply Forall_cons; [split; [vm_compute; try reflexivity; split; discriminate|vm_compute; try exact I; discriminate]|]). apply Forall_nil.
  - discriminate.
Qed.
(** Three equal glyphs, each written otherwise: the numbers of the first and the last are small. *)
Example C103_transitive_case : exists a b c : mglif unit (history unit), proper_mfek a /\ proper_mfek b /\ proper_mfek c /\ a <> b /\ b <> c /\
  number_in_mfek (IInt 45) a /\ (forall i, number_in_mfek i a -> small i) /\ (forall i, number_in_mfek i c -> small i) /\
  mfekglif_eqb rust_num any_eqb any_eqb a b = true /\ mfekglif_eqb rust_num any_eqb any_eqb b c = true.
Proof.
  exists (turned (IInt 45)), (turned (IFloat (fl "45"))), (turned (IInt 45)).
  assert (forall i, proper_mfek (turned i)) as P by (intros i; constructor; [constructor|intros ? ? ? ? ? ? ? []]).
  assert (forall i, number_in_mfek i (turned (IInt 45)) -> small i) as S.
  { intros i [l []|l im a []|c []|l [<- | []] [<- | []]|d li ci pi gl sel m' l []|d li ci pi gl sel m' []]. vm_compute. discriminate. }
  do 3 (split; [apply P|]). split; [intros E; apply (f_equal mg_guidelines) in E; discriminate E|]. split; [intros E; apply (f_equal mg_guidelines) in E; discriminate E|].
  split; [eapply number_in_guideline; left; reflexivity|]. split; [exact S|]. split; [exact S|]. split; vm_compute; reflexivity.
Qed.
