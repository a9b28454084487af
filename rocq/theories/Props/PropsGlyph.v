(** Properties C05-C07 and C24-C30 (and the document part of C18): glyphs read from and written
    as element trees. *)
Require Import Coq.Strings.String Coq.Lists.List Coq.NArith.NArith Coq.ZArith.ZArith Coq.Bool.Bool Coq.Floats.SpecFloat Coq.micromega.Lia.
Require Import Verif.Model.Base Verif.Model.Text Verif.Model.Float Verif.Model.Num Verif.Model.RustNum Verif.Model.Point Verif.Model.Contour
  Verif.Model.Create Verif.Model.Conv Verif.Model.Strings Verif.Model.Pedantry Verif.Model.Color Verif.Model.Xml Verif.Model.Parts
  Verif.Model.Read Verif.Model.Write
  Verif.Spec.TextSpec Verif.Spec.NumSpec Verif.Spec.ContourSpec Verif.Spec.OutlineSpec Verif.Spec.GlyphSpec
  Verif.Facts.NamesFacts Verif.Facts.StringsFacts Verif.Facts.TextFacts Verif.Facts.RustNumFacts Verif.Facts.ColorFacts
  Verif.Facts.CreateFacts Verif.Facts.XmlFacts Verif.Facts.GlyphFacts.
Import ListNotations.
Local Open Scope nat_scope.

(** C05: the written width is read back, under every setting. *)
Theorem C05_width_restored : forall (L : numlib) (ped : pedantry) (w : N), (w < 2 ^ 64)%N ->
  read_advance L ped (advance_xml w) = Ok w.
Proof. intros. now apply advance_restored. Qed.
Print Assumptions C05_width_restored.

(** C05: the width of a glyph read from a document is that of its first `advance` element. *)
Theorem C05_width_of_document : forall (L : numlib) (PD PL : Type) (pd0 : PD) (P : plistlib PL) ped root g,
  read_element L pd0 P ped root = Ok g ->
  match named "advance" root with
  | [] => g_width g = None
  | a :: _ => exists w, read_advance L ped a = Ok w /\ g_width g = Some w
  end.
Proof.
  intros L PD PL pd0 P ped root g. rewrite read_element_by_kind. unfold read_by_kind.
  destruct (str_eqb (ename root) (lit "glyph")); cbn [negb]; [|discriminate].
  destruct (get root "format") as [fm|]; cbn [ok_or bind]; [|discriminate].
  destruct (str_eqb fm (lit "2")); cbn [negb]; [|discriminate].
  destruct (get root "name") as [nm|]; cbn [ok_or bind]; [|discriminate].
  destruct (match hd_error (named "advance" root) with Some a => _ | None => _ end) as [w| |] eqn:E; cbn [bind]; try discriminate.
  destruct (mapM read_unicode _) as [us| |]; cbn [bind]; try discriminate.
  destruct (mapM (read_anchor L pd0 ped) _) as [an| |]; cbn [bind]; try discriminate.
  destruct (mapM (read_image L) _) as [im| |]; cbn [bind]; try discriminate.
  destruct (mapM (read_guideline L pd0) _) as [gl| |]; cbn [bind]; try discriminate.
  destruct (outline_by_kind L _) as [[gcs ks]| |]; cbn [bind fst snd]; try discriminate.
  destruct (outline_of_glif L gcs) as [o| |]; cbn [bind]; try discriminate.
  intros H. injection H as <-. cbn [g_width]. destruct (named "advance" root) as [|a l]; cbn [hd_error] in E.
  - now injection E as <-.
  - destruct (read_advance L ped a) as [x| |]; try discriminate. injection E as <-. eauto.
Qed.
Print Assumptions C05_width_of_document.

Example C05_case : (18446744073709551615 < 2 ^ 64)%N /\ get (advance_xml 18446744073709551615) "width" = Some (lit "18446744073709551615").
Proof. split; reflexivity. Qed.

(** C06: what becomes of the width attribute, for all texts and all settings. *)
Theorem C06_width_mended : forall (L : numlib) (a : element),
  (get a "width" = None -> exists e, forall ped, read_advance L ped a = Err e) /\
  (forall s, get a "width" = Some s -> parse_u64 s = None -> (f32_read L s = None \/ exists f, f32_read L s = Some f /\ is_subnormal f = true) ->
     exists e, forall ped, read_advance L ped a = Err e) /\
  (forall ped s, get a "width" = Some s ->
     (forall n, parse_u64 s = Some n -> read_advance L ped a = Ok n) /\
     (forall f, parse_u64 s = None -> f32_read L s = Some f -> is_subnormal f = false ->
        (~ strict ped -> exists w, read_advance L ped a = Ok w /\ cut_to_u64 f w) /\
        (strict ped -> exists e, read_advance L ped a = Err e))).
Proof.
  intros L a. split; [|split].
  - intros E. unfold read_advance. rewrite E. cbn. eauto.
  - intros s E E1 E2. unfold read_advance. rewrite E. cbn [ok_or bind]. rewrite E1. destruct E2 as [-> |(f & -> & ->)]; eexists; intros; reflexivity.
  - intros ped s E. unfold read_advance. rewrite E. cbn [ok_or bind]. repeat split.
    + intros n ->. reflexivity.
    + intros Hs. rewrite H, H0, H1. exists (f32_as_u64 f). split; [|apply cut_to_u64_ok].
      assert (should_mend ped = true) as ->; [|reflexivity]. unfold should_mend, strict in *. destruct ped as [l m]. cbn in *.
      destruct l, m; try reflexivity; exfalso; apply Hs; split; auto.
    + intros Hs. rewrite H, H0, H1.
      assert (should_mend ped = false) as ->; [|cbn; eauto]. unfold should_mend, strict in *. destruct ped as [l m]. cbn in *.
      destruct Hs as [[-> | ->] ->]; reflexivity.
Qed.
Print Assumptions C06_width_mended.

Example C06_case :
  let a := insert "width" (lit "500.75") (new_element "advance") in
  get a "width" = Some (lit "500.75") /\ parse_u64 (lit "500.75") = None /\
  (exists f, f32_read rust_num (lit "500.75") = Some f /\ is_subnormal f = false) /\
  read_advance rust_num pedantry_default a = Ok 500%N /\ strict (mkPedantry LevelTrueType MendNever) /\ ~ strict pedantry_default.
Proof.
  cbv zeta. split; [reflexivity|]. split; [reflexivity|]. split; [eexists; split; vm_compute; reflexivity|].
  split; [vm_compute; reflexivity|]. split; [split; auto|]. intros [_ H]. discriminate.
Qed.

(** C07: lists of characters are restored. *)
Theorem C07_code_points_restored : forall us : list N, Forall scalar us ->
  mapM read_unicode (map codepoint_xml us) = Ok us.
Proof.
  intros us H. destruct (mapM_restore read_unicode codepoint_xml eq us) as (us' & U1 & U2).
  - intros x Hx. rewrite Forall_forall in H. exists x. split; [apply unicode_restored; auto|reflexivity].
  - rewrite U1. f_equal. clear -U2. induction U2; congruence.
Qed.
Print Assumptions C07_code_points_restored.

(** C07: exactly the scalar values are accepted; everything else is an error. *)
Theorem C07_code_points_exact : forall (u : element),
  (forall c, read_unicode u = Ok c <-> exists s, get u "hex" = Some s /\ parse_hex_u32 s = Some c /\ scalar c) /\
  read_unicode u <> Panic.
Proof.
  intros u. split; [|apply read_unicode_np]. intros c. unfold read_unicode. destruct (get u "hex") as [s|]; cbn [ok_or bind].
  2:{ split; [discriminate|]. intros (s & H & _). discriminate. }
  destruct (parse_hex_u32 s) as [n|] eqn:E; cbn [ok_or bind].
  2:{ split; [discriminate|]. intros (s' & H & H1 & _). injection H as <-. congruence. }
  unfold char_from_u32. destruct (is_scalar n) eqn:Hn; cbn.
  - split.
    + intros H. injection H as <-. exists s. repeat split; [assumption|]. now apply scalar_is.
    + intros (s' & H & H1 & _). injection H as <-. rewrite H1 in E. now injection E as <-.
  - split; [discriminate|]. intros (s' & H & H1 & H2). injection H as <-. rewrite H1 in E. injection E as <-.
    apply scalar_is in H2. congruence.
Qed.
Print Assumptions C07_code_points_exact.

(** C07: in a document the code points are those of the `unicode` elements, in order. *)
Theorem C07_code_points_of_document : forall (L : numlib) (PD PL : Type) (pd0 : PD) (P : plistlib PL) ped root g,
  read_element L pd0 P ped root = Ok g ->
  Forall2 (fun u c => exists s, get u "hex" = Some s /\ parse_hex_u32 s = Some c /\ scalar c) (named "unicode" root) (g_unicode g).
Proof.
  intros L PD PL pd0 P ped root g. rewrite read_element_by_kind. unfold read_by_kind.
  destruct (str_eqb (ename root) (lit "glyph")); cbn [negb]; [|discriminate].
  destruct (get root "format") as [fm|]; cbn [ok_or bind]; [|discriminate].
  destruct (str_eqb fm (lit "2")); cbn [negb]; [|discriminate].
  destruct (get root "name") as [nm|]; cbn [ok_or bind]; [|discriminate].
  destruct (match hd_error (named "advance" root) with Some a => _ | None => _ end) as [w| |]; cbn [bind]; try discriminate.
  destruct (mapM read_unicode _) as [us| |] eqn:E; cbn [bind]; try discriminate.
  destruct (mapM (read_anchor L pd0 ped) _) as [an| |]; cbn [bind]; try discriminate.
  destruct (mapM (read_image L) _) as [im| |]; cbn [bind]; try discriminate.
  destruct (mapM (read_guideline L pd0) _) as [gl| |]; cbn [bind]; try discriminate.
  destruct (outline_by_kind L _) as [[gcs ks]| |]; cbn [bind fst snd]; try discriminate.
  destruct (outline_of_glif L gcs) as [o| |]; cbn [bind]; try discriminate.
  intros H. injection H as <-. cbn [g_unicode]. apply mapM_ok in E.
  induction E as [|u c us cs H _ IH]; constructor; [|assumption]. now apply (proj1 (C07_code_points_exact u)).
Qed.
Print Assumptions C07_code_points_of_document.

Example C07_case : Forall scalar [65; 1114111; 65; 0x10FFFF; 0xE000]%N /\
  read_unicode (insert "hex" (lit "D800") (new_element "unicode")) = Err (EInput "<unicode> char conversion failed") /\
  read_unicode (insert "hex" (lit "110000") (new_element "unicode")) = Err (EInput "<unicode> char conversion failed").
Proof. split; [|split; reflexivity]. repeat (apply Forall_cons; [unfold scalar; lia|]). apply Forall_nil. Qed.

(** C24: a glyph is restored by writing and reading it.  [HL] says that an f32 put into an
    `IntegerOrFloat` keeps its value. *)
Theorem C24_glyph_restored : forall (L : numlib) (PD PL : Type) (pd0 : PD) (P : plistlib PL) (dbg : bool) (g : glif PD PL),
  (forall f, f32_of_iof (iof_of_f32 L f) = f) -> glyph_ok L P g ->
  exists e g', glif_xml L P dbg g = Ok e /\ read_element L pd0 P pedantry_default e = Ok g' /\ glyph_restored g g'.
Proof.
  intros L PD PL pd0 P dbg g HL Hok.
  destruct (glyph_xml_restored L pd0 P HL dbg pedantry_default g Hok eq_refl eq_refl) as (e & g' & H1 & H2 & H3 & _). eauto.
Qed.
Print Assumptions C24_glyph_restored.

(** C24: whether there is an outline, and the name recorded for the components. *)
Theorem C24_outline_presence : forall (L : numlib) (PD PL : Type) (pd0 : PD) (P : plistlib PL) (dbg : bool) (g : glif PD PL),
  (forall f, f32_of_iof (iof_of_f32 L f) = f) -> glyph_ok L P g ->
  exists e g', glif_xml L P dbg g = Ok e /\ read_element L pd0 P pedantry_default e = Ok g' /\
    (g_outline g' = None <-> contours g = [] /\ cs_vec (g_components g) = []) /\
    cs_root (g_components g') = g_name g.
Proof.
  intros L PD PL pd0 P dbg g HL Hok.
  destruct (glyph_xml_restored L pd0 P HL dbg pedantry_default g Hok eq_refl eq_refl) as (e & g' & H1 & H2 & _ & H4 & _ & H6). eauto 8.
Qed.
Print Assumptions C24_outline_presence.

(** C24: with the number formats of Rust every i32 and every f32 other than -0.0 is legible. *)
Theorem C24_rust_numbers : (forall f, f32_of_iof (iof_of_f32 rust_num f) = f) /\
  (forall i, iof_ok i -> legible rust_num i /\ ~ In comma (iof_show rust_num i)) /\
  (forall f, iof_ok (IFloat f) -> legible_anchor_f32 rust_num f /\ legible_f32 rust_num f /\ legible rust_num (iof_of_f32 rust_num f)).
Proof.
  split; [reflexivity|].
  assert (forall i, iof_ok i -> legible rust_num i) as H.
  { intros [z|f] Hi; unfold legible.
    - exists (IInt z). cbn [rust_num iof_show iof_read]. rewrite rust_iof_round_trip_int by exact Hi. split; reflexivity.
    - destruct Hi as [Hv Hz]. pose proof (rust_iof_round_trip f Hv Hz) as H. cbn [rust_num iof_show iof_read].
      change (option_map f32_of_iof (rust_iof_read (rust_iof_show (IFloat f))) = Some f) in H.
      destruct (rust_iof_read (rust_iof_show (IFloat f))) as [j|]; [|discriminate H]. exists j. split; [reflexivity|]. cbn in H. injection H as H. now destruct j. }
  split.
  - intros i Hi. split; [auto|apply rust_iof_show_no_comma].
  - intros f Hf. split; [|split].
    + destruct Hf as [Hv Hz]. exact (rust_iof_round_trip f Hv Hz).
    + destruct Hf as [Hv _]. exact (rust_f32_round_trip f Hv).
    + exact (H (IFloat f) Hf).
Qed.
Print Assumptions C24_rust_numbers.

(** A glyph with one of everything. *)
Definition no_plist : plistlib unit := mkPlist unit (fun _ => PlOk tt) (fun _ => Some (Element (lit "plist") [] [])).
Definition ex_matrix : glifmatrix := mkMatrix (IFloat (fl "0.5")) (IInt 0) (IInt 0) (IInt 1) (IInt (-20)) (IFloat (fl "3.25")).
Definition ex_contour : list (point unit) :=
  [mkPoint (fl "0") (fl "0") Colocated (At (fl "50") (fl "80")) (Some (lit "top")) Curve true None;
   mkPoint (fl "100") (fl "0.125") (At (fl "120") (fl "50")) Colocated None Line false None].
Definition ex_glyph : glif unit unit :=
  mkGlif (Some [ex_contour]) [mkAnchor (fl "10") (fl "-2.5") (Some (lit "_top")) tt AMark]
    (mkComponents (lit "A") [mkComponent (lit "B") None ex_matrix (Some (lit "c1"))] [])
    [mkGuideline (fl "1") (fl "2") (IInt 45) (Some (lit "g")) (Some (mkColor (IInt 1) (IInt 0) (IFloat (fl "0.5")) (IInt 1))) None tt]
    [mkImage (Utf8 (lit "a.png")) ex_matrix None (Some (mkColor (IInt 1) (IInt 0) (IInt 0) (IInt 1)))]
    (Some 600%N) [65; 97]%N (lit "A") (Some (lit "a note")) None (LPlist tt).

Arguments fl _ : simpl never.
Ltac leg := eexists; split; [vm_compute; reflexivity|vm_compute; reflexivity].
Ltac in_cases H := cbn in H; repeat (destruct H as [<-|H]; [leg|]); destruct H.
Lemma ex_glyph_ok : glyph_ok rust_num no_plist ex_glyph.
Proof.
  assert (forall i, iof_ok i -> legible rust_num i) as HI by (intros i Hi; now apply C24_rust_numbers).
  repeat split.
  - intros w E. injection E as <-. reflexivity.
  - repeat (apply Forall_cons; [unfold scalar; lia|]). apply Forall_nil.
  - apply Forall_cons; [|apply Forall_nil]. split; [vm_compute; reflexivity|]. split; [vm_compute; reflexivity|].
    split; [|reflexivity]. intros s H. split.
    + injection H as <-. discriminate.
    + intros c Hin Hc. injection H as <-. unfold control in Hc. vm_compute in Hin. repeat (destruct Hin as [<-|Hin]; [lia|]). destruct Hin.
  - apply Forall_cons; [|apply Forall_nil]. split; [vm_compute; reflexivity|]. split; [vm_compute; reflexivity|].
    split; [leg|]. intros c E i Hi. cbn in E. injection E as <-. split; [|apply rust_iof_show_no_comma]. in_cases Hi.
  - apply Forall_cons; [|apply Forall_nil]. unfold component_ok. cbn.
    repeat (apply Forall_cons; [leg|]). apply Forall_nil.
  - apply Forall_cons; [|apply Forall_nil]. split; [discriminate|]. cbn.
    repeat (apply Forall_cons; [leg|]). apply Forall_nil.
  - exists (Element (lit "plist") [] []). split; reflexivity.
  - apply Forall_cons; [|apply Forall_nil]. split.
    + do 2 eexists. split; [reflexivity|]. split; [right; right; reflexivity|]. repeat (apply Forall_cons; [cbn; auto|]); apply Forall_nil.
    + intros p f Hp Hf. cbn in Hp. destruct Hp as [<-|[<-|[]]]; in_cases Hf.
Qed.
Example C24_case : glyph_ok rust_num no_plist ex_glyph. Proof. exact ex_glyph_ok. Qed.

(** C25 as stated is false: the color of the image is gone. *)
Theorem C25_image_color_refuted : exists e g',
  glyph_ok rust_num no_plist ex_glyph /\ glif_xml rust_num no_plist true ex_glyph = Ok e /\
  read_element rust_num tt no_plist pedantry_default e = Ok g' /\
  ~ Forall2 (fun i i' => same_color (i_color i') (i_color i)) (g_images ex_glyph) (g_images g').
Proof.
  destruct (glyph_xml_restored rust_num tt no_plist (proj1 C24_rust_numbers) true pedantry_default ex_glyph ex_glyph_ok eq_refl eq_refl)
    as (e & g' & H1 & H2 & _ & _ & H5 & _).
  exists e, g'. split; [exact ex_glyph_ok|]. split; [assumption|]. split; [assumption|]. intros H.
  inversion H as [|x y l l' Hxy Hl E1 E2]. rewrite <- E2 in H5. inversion H5 as [|? ? H6 _]. subst. unfold same_color in Hxy.
  rewrite H6 in Hxy. exact Hxy.
Qed.
Print Assumptions C25_image_color_refuted.

(** C25: exactly, the images come back with everything but their color, and never have one. *)
Theorem C25_image_color_exact : forall (L : numlib) (PD PL : Type) (pd0 : PD) (P : plistlib PL) (dbg : bool) (g : glif PD PL),
  (forall f, f32_of_iof (iof_of_f32 L f) = f) -> glyph_ok L P g ->
  exists e g', glif_xml L P dbg g = Ok e /\ read_element L pd0 P pedantry_default e = Ok g' /\
    Forall2 image_restored (g_images g) (g_images g') /\ Forall (fun i => i_color i = None) (g_images g').
Proof.
  intros L PD PL pd0 P dbg g HL Hok.
  destruct (glyph_xml_restored L pd0 P HL dbg pedantry_default g Hok eq_refl eq_refl) as (e & g' & H1 & H2 & H3 & _ & H5 & _).
  exists e, g'. repeat split; try assumption. apply H3.
Qed.
Print Assumptions C25_image_color_exact.

(** C26: documents with the same content of each kind are read to the same result. *)
Theorem C26_order_of_kinds : forall (L : numlib) (PD PL : Type) (pd0 : PD) (P : plistlib PL) ped e e',
  glyph_alike e e' -> read_element L pd0 P ped e = read_element L pd0 P ped e'.
Proof. intros. now apply read_alike. Qed.
Print Assumptions C26_order_of_kinds.

Lemma alike_same_children e e' : ename e = ename e' -> eattrs e = eattrs e' ->
  (forall n, In n kinds -> named n e = named n e') -> glyph_alike e e'.
Proof.
  intros H1 H2 H3. assert (forall (R : element -> element -> Prop) n, (forall x : element, R x x) -> In n kinds -> each_alike R n e e') as X.
  { intros R n HR Hn. unfold each_alike. rewrite (H3 n Hn). induction (named n e') as [|x l IH]; constructor; auto. }
  unfold glyph_alike. split; [assumption|]. split; [unfold same_attributes; now rewrite H2|].
  repeat split; apply X; try (unfold kinds; cbn; tauto); try reflexivity; try (intros x; red; reflexivity).
  - intros x. split; red; unfold each_alike.
    + induction (named "contour" x) as [|y l IH]; constructor; auto. red. red. induction (named "point" y); constructor; auto. now red.
    + induction (named "component" x) as [|y l IH]; constructor; auto. now red.
Qed.

(** C26: two neighbouring children of different kinds can be swapped. *)
Theorem C26_swap_neighbours : forall (L : numlib) (PD PL : Type) (pd0 : PD) (P : plistlib PL) ped n a l x y r,
  (forall e f, x = NElem e -> y = NElem f -> ename e <> ename f) ->
  read_element L pd0 P ped (Element n a (l ++ x :: y :: r)) = read_element L pd0 P ped (Element n a (l ++ y :: x :: r)).
Proof.
  intros L PD PL pd0 P ped n a l x y r H. apply read_alike. apply alike_same_children; try reflexivity.
  intros k _. unfold named. cbn [echildren]. rewrite !children_named_app. f_equal. rewrite !children_named_cons.
  destruct x as [e| | |], y as [f| | |]; try reflexivity. specialize (H e f eq_refl eq_refl).
  destruct (str_eqb_spec (ename e) (lit k)), (str_eqb_spec (ename f) (lit k)); congruence.
Qed.
Print Assumptions C26_swap_neighbours.

(** C26: anything that is not one of the known elements is ignored. *)
Theorem C26_unknown_ignored : forall (L : numlib) (PD PL : Type) (pd0 : PD) (P : plistlib PL) ped n a l x r,
  (forall e, x = NElem e -> ~ In (ename e) (map lit kinds)) ->
  read_element L pd0 P ped (Element n a (l ++ x :: r)) = read_element L pd0 P ped (Element n a (l ++ r)).
Proof.
  intros L PD PL pd0 P ped n a l x r H. apply read_alike. apply alike_same_children; try reflexivity.
  intros k Hk. unfold named. cbn [echildren]. rewrite !children_named_app. f_equal. rewrite !children_named_cons.
  destruct x as [e| | |]; try reflexivity. destruct (str_eqb_spec (ename e) (lit k)) as [E|]; [|reflexivity].
  exfalso. apply (H e eq_refl). rewrite E. now apply in_map.
Qed.
Print Assumptions C26_unknown_ignored.

Example C26_case : exists e e', glyph_alike e e' /\ e <> e' /\
  e = Element (lit "glyph") [(lit "name", lit "A"); (lit "format", lit "2")]
        [NElem (advance_xml 5); NElem (codepoint_xml 65); NElem (new_element "other"); NElem (codepoint_xml 66)] /\
  e' = Element (lit "glyph") [(lit "format", lit "2"); (lit "name", lit "A")]
        [NElem (codepoint_xml 65); NElem (codepoint_xml 66); NOther; NElem (advance_xml 5)].
Proof.
  do 2 eexists. split; [|split; [|split; reflexivity]]; [|discriminate].
  split; [reflexivity|]. split.
  - intros k. cbn [eattrs attr_get]. destruct (str_eqb_spec k (lit "name")) as [->|]; reflexivity.
  - repeat split; unfold each_alike; cbn; repeat constructor.
Qed.

(** C27: what is read is a `glyph` of format 2 with a name, which is the name of the result. *)
Theorem C27_only_format_2 : forall (L : numlib) (PD PL : Type) (pd0 : PD) (P : plistlib PL) ped root,
  (forall g, read_element L pd0 P ped root = Ok g ->
     ename root = lit "glyph" /\ get root "format" = Some (lit "2") /\ get root "name" = Some (g_name g)) /\
  (ename root <> lit "glyph" \/ get root "format" <> Some (lit "2") \/ get root "name" = None ->
     exists msg, read_element L pd0 P ped root = Err (EInput msg)).
Proof.
  intros L PD PL pd0 P ped root. rewrite read_element_by_kind. unfold read_by_kind.
  destruct (str_eqb_spec (ename root) (lit "glyph")) as [E0|E0]; cbn [negb]; [|split; [discriminate|eauto]].
  destruct (get root "format") as [fm|]; cbn [ok_or bind]; [|split; [discriminate|eauto]].
  destruct (str_eqb_spec fm (lit "2")) as [->|E1]; cbn [negb]; [|split; [discriminate|eauto]].
  destruct (get root "name") as [nm|]; cbn [ok_or bind]; [|split; [discriminate|eauto]].
  split; [|intros [H|[H|H]]; congruence]. intros g.
  destruct (match hd_error (named "advance" root) with Some a => _ | None => _ end) as [w| |]; cbn [bind]; try discriminate.
  destruct (mapM read_unicode _) as [us| |] eqn:E; cbn [bind]; try discriminate.
  destruct (mapM (read_anchor L pd0 ped) _) as [an| |]; cbn [bind]; try discriminate.
  destruct (mapM (read_image L) _) as [im| |]; cbn [bind]; try discriminate.
  destruct (mapM (read_guideline L pd0) _) as [gl| |]; cbn [bind]; try discriminate.
  destruct (outline_by_kind L _) as [[gcs ks]| |]; cbn [bind fst snd]; try discriminate.
  destruct (outline_of_glif L gcs) as [o| |]; cbn [bind]; try discriminate.
  intros H. injection H as <-. auto.
Qed.
Print Assumptions C27_only_format_2.

Example C27_case : exists g, read_element rust_num tt no_plist pedantry_default
    (Element (lit "glyph") [(lit "name", lit "A"); (lit "format", lit "2")] [NElem (advance_xml 5)]) = Ok g /\ g_width g = Some 5%N.
Proof. eexists. split; [vm_compute; reflexivity|reflexivity]. Qed.

(** C28: an anchor is restored, with its class and kind. *)
Theorem C28_anchor_restored : forall (L : numlib) (PD : Type) (pd0 : PD) (a : anchor PD), anchor_ok L a ->
  exists a', read_anchor L pd0 pedantry_default (anchor_xml L a) = Ok a' /\ anchor_restored a a'.
Proof.
  intros L PD pd0 a H. destruct (anchor_xml_restored L pd0 pedantry_default a H eq_refl eq_refl) as (a' & H1 & H2 & _). eauto.
Qed.
Print Assumptions C28_anchor_restored.

(** C28: the class read is the name attribute if usable, otherwise none; the kind is `mark`
    exactly when the class starts with an underscore. *)
Theorem C28_anchor_class : forall (L : numlib) (PD : Type) (pd0 : PD) (ped : pedantry) (e : element) (a : anchor PD),
  read_anchor L pd0 ped e = Ok a ->
  (forall s, an_class a = Some s <-> get e "name" = Some s /\ usable_class s) /\
  (an_type a = AMark <-> exists t, an_class a = Some (95%N :: t)).
Proof.
  intros L PD pd0 ped e a. unfold read_anchor.
  destruct (get e "x"); cbn [ok_or bind]; [|discriminate]. destruct (iof_read L s) as [x|]; cbn [ok_or bind]; [|discriminate].
  destruct (get e "y"); cbn [ok_or bind]; [|discriminate]. destruct (iof_read L s0) as [y|]; cbn [ok_or bind]; [|discriminate].
  unfold anchor_from_glif. destruct (_ && _); [discriminate|]. intros H. injection H as <-. cbn [an_class an_type ga_class]. split.
  - intros c. destruct (get e "name") as [n|]; [|split; [discriminate|intros [H _]; discriminate]].
    destruct (glif_string_len_one n) as [m| |] eqn:E.
    + apply glif_string_len_one_exact in E as (-> & H1 & H2). split; [intros H; injection H as <-; repeat split; assumption|intros [H _]; assumption].
    + split; [discriminate|]. intros [H [H1 H2]]. injection H as <-. rewrite glif_string_len_one_ok in E by assumption. discriminate.
    + split; [discriminate|]. intros [H [H1 H2]]. injection H as <-. rewrite glif_string_len_one_ok in E by assumption. discriminate.
  - set (cl := match get e "name" with Some n => _ | None => None end). clearbody cl. unfold anchor_type_of.
    destruct cl as [[|c t]|].
    + split; [discriminate|]. intros (t & H). discriminate.
    + destruct (N.eqb_spec c 95) as [->|Hc]; [split; eauto|].
      assert (match c with 95%N => AMark | _ => ABase end = ABase) as X.
      { destruct c as [|p]; [reflexivity|]. repeat (destruct p as [p|p|]; try reflexivity). congruence. }
      split; [|intros (t' & H); congruence]. intros H. rewrite X in H. discriminate.
    + split; [discriminate|]. intros (t & H). discriminate.
Qed.
Print Assumptions C28_anchor_class.

Example C28_case : anchor_ok rust_num (mkAnchor (fl "10") (fl "-2.5") (Some (lit "_top")) tt AMark) /\
  exists a, read_anchor rust_num tt pedantry_default (insert "name" [7%N] (insert "y" (lit "1") (insert "x" (lit "2") (new_element "anchor")))) = Ok a /\ an_class a = None.
Proof.
  split; [|eexists; split; [vm_compute; reflexivity|reflexivity]].
  destruct ex_glyph_ok as (_ & _ & H & _). now inversion H.
Qed.

(** C29: rejection and rounding, for all settings. *)
Theorem C29_anchor_pedantry : forall (PD : Type) (pd0 : PD) (ped : pedantry) (x y : iof) (class : option str),
  (ped_mend ped = MendAlways -> exists a, anchor_from_glif pd0 (mkGA x y class) ped = Ok a) /\
  (ped_mend ped <> MendAlways ->
     ((exists e, anchor_from_glif pd0 (mkGA x y class) ped = Err e) <-> (exists f, x = IFloat f) \/ (exists f, y = IFloat f))) /\
  (forall a, anchor_from_glif pd0 (mkGA x y class) ped = Ok a ->
     if is_sfnt (ped_level ped) then rounded (f32_of_iof x) (an_x a) /\ rounded (f32_of_iof y) (an_y a)
     else an_x a = f32_of_iof x /\ an_y a = f32_of_iof y) /\
  anchor_from_glif pd0 (mkGA x y class) ped <> Panic.
Proof.
  intros PD pd0 ped x y class. unfold anchor_from_glif. cbn [ga_x ga_y ga_class].
  set (always := match ped_mend ped with MendAlways => true | _ => false end). split; [|split; [|split]].
  - intros H. unfold always. rewrite H. cbn. eauto.
  - intros H. assert (always = false) as -> by (unfold always; destruct (ped_mend ped); congruence). cbn [negb andb].
    destruct x as [zx|fx], y as [zy|fy]; cbn.
    + split; [intros (e & He); discriminate|]. intros [(f & Hf)|(f & Hf)]; discriminate.
    + split; eauto.
    + split; eauto.
    + split; eauto.
  - intros a. destruct (_ && _); [discriminate|]. intros H. injection H as <-. cbn [an_x an_y]. unfold maybe_round.
    destruct (is_sfnt (ped_level ped)); cbn [andb should_round]; [|now split]. split; apply rounded_ok.
  - destruct (_ && _); discriminate.
Qed.
Print Assumptions C29_anchor_pedantry.

Example C29_case :
  (exists a, anchor_from_glif tt (mkGA (IFloat (fl "2.5")) (IInt 3) None) (mkPedantry LevelOpenType MendAlways) = Ok a /\ an_x a = f32_of_Z 3) /\
  anchor_from_glif tt (mkGA (IFloat (fl "2.5")) (IInt 3) None) (mkPedantry LevelUfo MendNever) = Err (EPedantic "Anchor was a float, not an integer!") /\
  is_sfnt LevelTrueType = true /\ is_sfnt LevelOpenType = true /\ is_sfnt LevelUfo = false /\ is_sfnt LevelGlifParser = false.
Proof. split; [eexists; split; [vm_compute; reflexivity|vm_compute; reflexivity]|]. repeat split. Qed.

(** C30: what becomes of the lib element. *)
Theorem C30_lib_exact : forall (L : numlib) (PD PL : Type) (pd0 : PD) (P : plistlib PL) ped root g,
  read_element L pd0 P ped root = Ok g ->
  match named "lib" root with
  | [] => g_lib g = LNone
  | l :: _ =>
      let p := Element (lit "plist") (eattrs l) (echildren l) in
      match plist_of_element P p with
      | PlOk d => g_lib g = LPlist d
      | PlWriteError => g_lib g = LXml p
      | PlBad => g_lib g = LNone
      end
  end.
Proof.
  intros L PD PL pd0 P ped root g. rewrite read_element_by_kind. unfold read_by_kind.
  destruct (str_eqb (ename root) (lit "glyph")); cbn [negb]; [|discriminate].
  destruct (get root "format") as [fm|]; cbn [ok_or bind]; [|discriminate].
  destruct (str_eqb fm (lit "2")); cbn [negb]; [|discriminate].
  destruct (get root "name") as [nm|]; cbn [ok_or bind]; [|discriminate].
  destruct (match hd_error (named "advance" root) with Some a => _ | None => _ end) as [w| |]; cbn [bind]; try discriminate.
  destruct (mapM read_unicode _) as [us| |] eqn:E; cbn [bind]; try discriminate.
  destruct (mapM (read_anchor L pd0 ped) _) as [an| |]; cbn [bind]; try discriminate.
  destruct (mapM (read_image L) _) as [im| |]; cbn [bind]; try discriminate.
  destruct (mapM (read_guideline L pd0) _) as [gl| |]; cbn [bind]; try discriminate.
  destruct (outline_by_kind L _) as [[gcs ks]| |]; cbn [bind fst snd]; try discriminate.
  destruct (outline_of_glif L gcs) as [o| |]; cbn [bind]; try discriminate.
  intros H. injection H as <-. cbn [g_lib]. destruct (named "lib" root) as [|l r]; [reflexivity|]. cbn [hd_error].
  destruct l as [n a c]. cbn [read_lib eattrs echildren]. cbv zeta. destruct (plist_of_element P _); reflexivity.
Qed.
Print Assumptions C30_lib_exact.

(** C30 as stated is false: a lib that is not a property list is dropped, and nothing is written
    for it. *)
Theorem C30_malformed_lib_refuted : forall (L : numlib) (PD PL : Type) (pd0 : PD) (P : plistlib PL) ped root g l r,
  read_element L pd0 P ped root = Ok g -> named "lib" root = l :: r ->
  plist_of_element P (Element (lit "plist") (eattrs l) (echildren l)) = PlBad ->
  g_lib g = LNone /\ forall dbg e, glif_xml L P dbg g = Ok e -> named "lib" e = [].
Proof.
  intros L PD PL pd0 P ped root g l r H Hl Hp. pose proof (C30_lib_exact L PD PL pd0 P ped root g H) as X. rewrite Hl in X. cbv zeta in X. rewrite Hp in X.
  split; [assumption|]. intros dbg e He. eapply no_lib_written; eassumption.
Qed.
Print Assumptions C30_malformed_lib_refuted.

Example C30_case : let P := mkPlist unit (fun _ => PlBad) (fun _ => None) in
  let root := Element (lit "glyph") [(lit "name", lit "A"); (lit "format", lit "2")] [NElem (Element (lit "lib") [] [NText (lit "oops")])] in
  exists g e, read_element rust_num tt P pedantry_default root = Ok g /\ glif_xml rust_num P true g = Ok e /\ echildren e = [].
Proof. cbv zeta. do 2 eexists. split; [vm_compute; reflexivity|]. split; [vm_compute; reflexivity|reflexivity]. Qed.

(** C18, for documents: reading panics only because of a contour of the (first) outline that
    mixes `qcurve` with other on-curve points. *)
Theorem C18_document_panics : forall (L : numlib) (PD PL : Type) (pd0 : PD) (P : plistlib PL) ped root,
  read_element L pd0 P ped root = Panic ->
  exists o ce gps, hd_error (named "outline" root) = Some o /\ In ce (named "contour" o) /\
    mapM (read_point L) (named "point" ce) = Ok gps /\ gps <> [] /\ unreadable gps.
Proof. intros L PD PL pd0 P ped root. apply read_panic_contour. Qed.
Print Assumptions C18_document_panics.

Example C18_document_case :
  let pt t := NElem (insert "type" (lit t) (insert "y" (lit "1") (insert "x" (lit "2") (new_element "point")))) in
  read_element rust_num tt no_plist pedantry_default
    (Element (lit "glyph") [(lit "name", lit "A"); (lit "format", lit "2")]
      [NElem (Element (lit "outline") [] [NElem (Element (lit "contour") [] [pt "line"%string; pt "qcurve"%string])])]) = Panic.
Proof. vm_compute. reflexivity. Qed.
