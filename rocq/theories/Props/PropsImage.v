(** Properties C44, C45: images. *)
Require Import Coq.Lists.List Coq.NArith.NArith Coq.ZArith.ZArith Coq.Arith.Arith Coq.Bool.Bool Coq.micromega.Lia.
Require Import Verif.Model.Base Verif.Model.Text Verif.Model.Float Verif.Model.Num Verif.Model.Names Verif.Model.Color
  Verif.Model.Component Verif.Model.Image Verif.Spec.ImageSpec Verif.Facts.ImageFacts.
Import ListNotations.
Local Open Scope N_scope.

(** C44: a format is reported exactly if there are at least twelve bytes and its magic number;
    for every other byte string the answer is Unknown. *)
Theorem C44_codec_exact : forall (v : list N) (c : codec), c <> CUnknown ->
  (guess_codec_bytes v = c <-> (12 <= length v)%nat /\ magic c v).
Proof. exact codec_exact. Qed.
Print Assumptions C44_codec_exact.

(** C44: detection looks at the first twelve bytes only. *)
Theorem C44_codec_from_prefix : forall v w : list N,
  firstn 12 v = firstn 12 w -> guess_codec_bytes v = guess_codec_bytes w.
Proof. exact codec_prefix. Qed.
Print Assumptions C44_codec_from_prefix.

(** C44: so a file has at most one format. *)
Theorem C44_codec_unique : forall (v : list N) (c d : codec),
  (12 <= length v)%nat -> magic c v -> magic d v -> c = d.
Proof.
  intros v c d Hl Hc Hd. destruct (codec_exact v c) as [_ H1]; [intros ->; exact Hc|].
  destruct (codec_exact v d) as [_ H2]; [intros ->; exact Hd|]. rewrite <- H1, <- H2 by auto. reflexivity.
Qed.
Print Assumptions C44_codec_unique.

(** C44 on the image: no panic for data, and loading records the format of what was read. *)
Theorem C44_load_records_codec : forall disk (i i' : image) r,
  load disk i = (r, i') ->
  (r = Ok tt -> exists v, disk (im_filename i) = Some v /\ im_data i' = Data v /\ im_codec i' = guess_codec_bytes v) /\
  (r <> Ok tt -> disk (im_filename i) = None /\ im_codec i' = im_codec i) /\ r <> Panic.
Proof.
  intros disk i i' r H. unfold load in H. destruct (disk (im_filename i)) as [v|]; injection H as <- <-.
  - split; [intros _; eauto|]. split; [congruence|discriminate].
  - split; [discriminate|]. split; [auto|discriminate].
Qed.
Print Assumptions C44_load_records_codec.

(** C44: asking data for its format answers; asking pixels panics. *)
Theorem C44_guess : forall (d : data_or_bitmap) (c : codec), c <> CUnknown ->
  (guess_codec d = Ok c <-> exists v, d = Data v /\ (12 <= length v)%nat /\ magic c v) /\
  (guess_codec d = Panic <-> exists px w h, d = Bitmap px w h).
Proof.
  intros d c Hc. unfold guess_codec. destruct d as [v|px w h]; cbn; split; split.
  - intros [= H]. exists v. split; [reflexivity|]. now apply codec_exact.
  - intros (v' & [= <-] & H). f_equal. now apply codec_exact.
  - discriminate.
  - intros (px & w & h & [=]).
  - discriminate.
  - intros (v & [=] & _).
  - eauto.
  - reflexivity.
Qed.
Print Assumptions C44_guess.

(** C44, "the magic number alone", is false for files shorter than twelve bytes. *)
Theorem C44_short_refuted : exists v, magic CJPEG v /\ guess_codec_bytes v = CUnknown.
Proof. exists [255; 216; 255; 217]. split; reflexivity. Qed.
Print Assumptions C44_short_refuted.

Example C44_case : guess_codec_bytes [82; 73; 70; 70; 1; 2; 3; 4; 87; 69; 66; 80; 9] = CWebP /\
  magic CWebP [82; 73; 70; 70; 1; 2; 3; 4; 87; 69; 66; 80; 9] /\
  guess_codec_bytes [82; 73; 70; 70; 1; 2; 3; 4; 87; 69; 66; 81; 9] = CUnknown.
Proof. repeat split. Qed.

(** C45: after every history of loads and decodes of a fresh image, what the image holds is
    the bytes of the last successful load, or, if decoding was tried since and the decoder
    accepts these bytes, their pixels.  No load or decode panics. *)
Theorem C45_content_exact : forall (D : decoder) (more : bool) (fn : path) (h : list call),
  rgba8 D ->
  exists i, run D more (image_new fn) h = Ok i /\
    im_data i = match (if snd (history h) then decodes_to D more None (fst (history h)) else None) with
                | Some (px, w, ht) => Bitmap px w ht
                | None => Data (fst (history h))
                end.
Proof.
  intros D more fn h HD.
  destruct (run_from D more h HD (image_new fn) ([], false)) as (i & E & _ & Hd & _).
  - reflexivity.
  - split; discriminate.
  - exists i. split; [assumption|]. exact Hd.
Qed.
Print Assumptions C45_content_exact.

(** C45: the same for an image with a color, loaded for a glyph. *)
Theorem C45_content_colored : forall (D : decoder) (more : bool) (i0 : image) (v : list N) (h : list call),
  rgba8 D -> im_data i0 = Data v -> im_state i0 = Loaded ->
  exists i, run D more i0 h = Ok i /\ im_color i = im_color i0 /\
    let s := fold_left seen h (v, false) in
    im_data i = match (if snd s then decodes_to D more (im_color i0) (fst s) else None) with
                | Some (px, w, ht) => Bitmap px w ht
                | None => Data (fst s)
                end.
Proof.
  intros D more i0 v h HD Hd Hs.
  destruct (run_from D more h HD i0 (v, false)) as (i & E & Hc & Hi & _).
  - exact Hd.
  - split; [eauto|congruence].
  - exists i. auto.
Qed.
Print Assumptions C45_content_colored.

(** C45: the state Decoded means pixels; the state Loaded means that [data] gives the bytes of
    the last successful load. *)
Theorem C45_states : forall (D : decoder) (more : bool) (fn : path) (h : list call) (i : image),
  rgba8 D -> run D more (image_new fn) h = Ok i ->
  (im_state i = Decoded -> exists px w ht, im_data i = Bitmap px w ht /\
      snd (history h) = true /\ decodes_to D more None (fst (history h)) = Some (px, w, ht)) /\
  (im_state i = Loaded -> data i = Ok (fst (history h))).
Proof.
  intros D more fn h i HD E.
  destruct (run_from D more h HD (image_new fn) ([], false)) as (i' & E' & _ & Hd & G1 & G2);
    [reflexivity|split; discriminate|].
  assert (i' = i) as -> by congruence. cbn [im_color image_new] in Hd. unfold content in Hd. change (fold_left seen h ([], false)) with (history h) in Hd. split.
  - intros Hs. destruct (G2 Hs) as (px & w & ht & Hb). exists px, w, ht. rewrite Hb in Hd.
    destruct (snd (history h)); [|discriminate]. destruct (decodes_to D more None _) as [[[? ?] ?]|]; [|discriminate].
    injection Hd as <- <- <-. auto.
  - intros Hs. destruct (G1 Hs) as (v & Hb). unfold data. rewrite Hs, Hb. cbn [unwrap_data]. rewrite Hb in Hd.
    destruct (if snd (history h) then _ else _) as [[[? ?] ?]|]; [discriminate|]. now injection Hd as ->.
Qed.
Print Assumptions C45_states.

(** C45: pixels need a successful load, with a decoder that rejects the empty file. *)
Theorem C45_pixels_need_load : forall (D : decoder) (more : bool) (fn : path) (h : list call) (i : image) px w ht,
  rgba8 D -> decode_rgba D [] = None -> run D more (image_new fn) h = Ok i -> im_data i = Bitmap px w ht ->
  exists h1 v h2, h = h1 ++ CallLoad (Some v) :: h2 /\ In CallDecode h2 /\
    (forall v', ~ In (CallLoad (Some v')) h2) /\ decodes_to D more None v = Some (px, w, ht).
Proof.
  intros D more fn h i px w ht HD H0 E Hb. destruct (C45_content_exact D more fn h HD) as (i' & E' & Hd).
  assert (i' = i) as -> by congruence. rewrite Hb in Hd.
  assert (decodes_to D more None [] = None) as Hnil.
  { unfold decodes_to, decode_bytes. rewrite H0. now destruct (format_io_error D []), (more || format_is_png D []). }
  assert (snd (history h) = true /\ decodes_to D more None (fst (history h)) = Some (px, w, ht)) as [Hs Hx].
  { destruct (snd (history h)); [|discriminate]. destruct (decodes_to D more None _) as [[[? ?] ?]|]; [|discriminate].
    injection Hd as -> -> ->. auto. }
  destruct (history_load h Hs) as [[_ X]|(h1 & h2 & X & H1 & H2)]; [rewrite X in Hx; congruence|].
  exists h1, (fst (history h)), h2. auto.
Qed.
Print Assumptions C45_pixels_need_load.

(** C45: a failed load leaves everything but the state. *)
Theorem C45_failed_load_frame : forall disk (i i' : image) e,
  load disk i = (Err e, i') ->
  im_state i' = TriedAndFailed /\ im_data i' = im_data i /\ im_codec i' = im_codec i /\
  im_filename i' = im_filename i /\ im_matrix i' = im_matrix i /\ im_color i' = im_color i.
Proof.
  intros disk i i' e H. unfold load in H. destruct (disk (im_filename i)); injection H as H1 H2; try discriminate.
  subst. cbn. tauto.
Qed.
Print Assumptions C45_failed_load_frame.

(** C45: tinting keeps the number of bytes and multiplies each channel of each pixel. *)
Theorem C45_tint : forall (mul : N -> iof -> N) (c : color) (n : nat) (px : list N),
  length px = (4 * n)%nat ->
  exists px', tint mul c px = Ok px' /\ length px' = length px /\
    forall k p0 p1 p2 p3, firstn 4 (skipn (4 * k) px) = [p0; p1; p2; p3] ->
      firstn 4 (skipn (4 * k) px') = [mul p0 (cr c); mul p1 (cg c); mul p2 (cb c); mul p3 (ca c)].
Proof.
  intros mul c n px H. destruct (tint_len mul c n px H) as (px' & E & L). exists px'. split; [assumption|]. split; [assumption|].
  intros. eapply tint_nth; eassumption.
Qed.
Print Assumptions C45_tint.

(** C45, "no call panics", is false: [data] panics exactly when the image has been decoded or
    could not be decoded. *)
Theorem C45_data_panics_exactly : forall (D : decoder) (more : bool) (fn : path) (h : list call) (i : image),
  rgba8 D -> run D more (image_new fn) h = Ok i ->
  (data i = Panic <-> im_state i = Decoded \/ im_state i = LoadedDecodeFailed).
Proof.
  intros D more fn h i HD E. destruct (C45_states D more fn h i HD E) as [_ H2]. unfold data in *.
  destruct (im_state i); split; intros H; try discriminate; auto; try (destruct H; discriminate).
  rewrite (H2 eq_refl) in H. discriminate.
Qed.
Print Assumptions C45_data_panics_exactly.

Definition ex_decoder : decoder :=
  mkDecoder (fun _ => false) (fun v => match v with 137 :: _ => true | _ => false end)
    (fun v => match v with [137; a; b; c; d] => Some ([a; b; c; d], 1, 1) | _ => None end)
    (fun v => match v with [137; a; b; c; d] => Some ([a; a; a; 255], 1, 1) | _ => None end)
    (fun n _ => n).
Theorem C45_data_panics_refuted : exists (D : decoder) (h : list call) (i : image),
  rgba8 D /\ run D false (image_new []) h = Ok i /\ data i = Panic.
Proof.
  exists ex_decoder, [CallLoad (Some [137; 1; 2; 3; 4]); CallDecode]. eexists. split; [|split; reflexivity].
  intros v px w h H. exists 1%nat. unfold ex_decoder, decode_grey in H.
  repeat match type of H with match ?x with _ => _ end = _ => destruct x; try discriminate end. injection H as <- _ _. reflexivity.
Qed.
Print Assumptions C45_data_panics_refuted.

Example C45_case : rgba8 ex_decoder /\ decode_rgba ex_decoder [] = None /\
  option_map im_data (match run ex_decoder false (image_new [])
     [CallDecode; CallLoad (Some [137; 1; 2; 3; 4]); CallLoad None; CallDecode; CallDecode] with Ok i => Some i | _ => None end)
  = Some (Bitmap [1; 2; 3; 4] 1 1).
Proof.
  split; [|split; reflexivity].
  intros v px w h H. exists 1%nat. unfold ex_decoder, decode_grey in H.
  repeat match type of H with match ?x with _ => _ end = _ => destruct x; try discriminate end. injection H as <- _ _. reflexivity.
Qed.

(** C45: what decoding does in every case: pixels that are already there are an error and stay. *)
Theorem C45_decode_exact : forall (D : decoder) (more : bool) (i : image), rgba8 D ->
  match im_data i with
  | Bitmap _ _ _ => decode D more i = (Err EImageIo, i)
  | Data raw =>
      match decodes_to D more (im_color i) raw with
      | Some (px, w, h) => decode D more i = (Ok tt, mkImg (im_filename i) (Bitmap px w h) Decoded (im_codec i) (im_matrix i) (im_color i))
      | None => exists e s, decode D more i = (Err e, mkImg (im_filename i) (Data raw) s (im_codec i) (im_matrix i) (im_color i)) /\
          (if format_io_error D raw then e = EImageIo /\ s = im_state i
           else s = LoadedDecodeFailed /\ e = if more || format_is_png D raw then EImageNotDecodable else EImageNotPNG)
      end
  end.
Proof.
  intros D more i HD. unfold decode. destruct (im_data i) as [raw|px w h] eqn:Ed; [|reflexivity].
  unfold decodes_to. destruct (format_io_error D raw) eqn:E1.
  - exists EImageIo, (im_state i). split; [|now split]. destruct i; cbn in *; now subst.
  - destruct more, (format_is_png D raw) eqn:E2; cbn [orb negb andb];
      try (do 2 eexists; split; [unfold with_state; rewrite Ed; reflexivity|split; reflexivity]);
      destruct (decode_bytes D raw (im_color i)) as [[[[px w] h]|]|e|] eqn:E3; try reflexivity;
      try (do 2 eexists; split; [unfold with_state; rewrite Ed; reflexivity|split; reflexivity]);
      exfalso; unfold decode_bytes in E3; destruct (im_color i) as [c|]; try discriminate;
      destruct (decode_grey D raw) as [[[px w] h]|] eqn:E4; try discriminate;
      destruct (HD _ _ _ _ E4) as (n & Hn); destruct (tint_len (channel_mul D) c n px Hn) as (px' & E5 & _); rewrite E5 in E3; discriminate.
Qed.
Print Assumptions C45_decode_exact.

(** C45: a pixel of fewer than four bytes would panic; no decoder gives one. *)
Theorem C45_tint_panics_exactly : forall (mul : N -> iof -> N) (c : color) (px : list N),
  tint mul c px = Panic <-> forall n, length px <> (4 * n)%nat.
Proof.
  intros mul c px. split.
  - intros H n Hn. destruct (tint_len mul c n px Hn) as (px' & E & _). congruence.
  - remember (length px) as k eqn:Ek. revert px Ek. induction k as [k IH] using (well_founded_induction lt_wf). intros px Ek H.
    destruct px as [|a [|b [|x [|d px]]]]; try reflexivity.
    + exfalso. now apply (H 0%nat).
    + cbn [tint]. rewrite (IH (length px)); [reflexivity| |reflexivity|].
      * cbn [length] in Ek. lia.
      * intros n Hn. apply (H (S n)). cbn [length] in Ek. lia.
Qed.
Print Assumptions C45_tint_panics_exactly.
