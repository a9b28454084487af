(** Element trees: taking children by name, reading by kinds. *)
Require Import Coq.Strings.String Coq.Lists.List Coq.NArith.NArith Coq.Bool.Bool Coq.micromega.Lia.
Require Import Verif.Model.Base Verif.Model.Text Verif.Model.Float Verif.Model.Num Verif.Model.Point Verif.Model.Contour
  Verif.Model.Create Verif.Model.Pedantry Verif.Model.Xml Verif.Model.Parts Verif.Model.Read Verif.Spec.GlyphSpec
  Verif.Facts.NamesFacts Verif.Facts.CreateFacts.
Import ListNotations.

(** What is left when all children with a name are taken. *)
Definition without (n : str) (c : list node) : list node :=
  filter (fun x => match x with NElem e => negb (str_eqb (ename e) n) | _ => true end) c.

Lemma children_named_cons n x c : children_named n (x :: c) =
  match x with NElem e => if str_eqb (ename e) n then e :: children_named n c else children_named n c | _ => children_named n c end.
Proof.
  unfold children_named. cbn [flat_map]. destruct x as [e| | |]; try reflexivity.
  destruct (str_eqb (ename e) n) eqn:E.
  - apply str_eqb_eq in E. destruct (list_eq_dec N.eq_dec (ename e) n); [reflexivity|congruence].
  - destruct (str_eqb_spec (ename e) n) as [F|F]; [discriminate|]. destruct (list_eq_dec N.eq_dec (ename e) n); [congruence|reflexivity].
Qed.
Lemma children_named_app n a b : children_named n (a ++ b) = children_named n a ++ children_named n b.
Proof. apply flat_map_app. Qed.

Lemma get_text_in e : get_text e = text_in e.
Proof.
  unfold get_text, text_in. induction (echildren e) as [|x c IH]; [reflexivity|].
  assert (List.concat (texts c) = flat_map (fun x => match says_text x with Some s => s | None => [] end) c) as Hc.
  { clear. induction c as [|[]]; cbn [texts flat_map List.concat says_text app]; congruence. }
  destruct x; cbn [texts existsb says_text flat_map orb app]; first [exact IH|cbn [List.concat]; now rewrite Hc].
Qed.

Lemma take_child_none n c : children_named n c = [] -> take_child n c = None /\ without n c = c.
Proof.
  induction c as [|x c IH]; [now split|]. rewrite children_named_cons. intros H.
  destruct x as [e| | |]; cbn [take_child without filter]; fold (without n c).
  - destruct (str_eqb (ename e) n); [discriminate|]. destruct (IH H) as [-> ->]. now split.
  - destruct (IH H) as [-> ->]. now split.
  - destruct (IH H) as [-> ->]. now split.
  - destruct (IH H) as [-> ->]. now split.
Qed.
Lemma take_child_some n c e l : children_named n c = e :: l ->
  exists c', take_child n c = Some (e, c') /\ children_named n c' = l /\ without n c' = without n c /\
    length c = S (length c') /\ forall m, m <> n -> children_named m c' = children_named m c.
Proof.
  induction c as [|x c IH]; [discriminate|]. rewrite children_named_cons. intros H.
  assert (forall y, (y = x /\ forall d, y <> NElem d) -> children_named n c = e :: l ->
    exists c', match take_child n c with Some (z, t') => Some (z, y :: t') | None => None end = Some (e, c') /\
       children_named n c' = l /\ without n c' = without n (y :: c) /\ length (y :: c) = S (length c') /\
       forall m, m <> n -> children_named m c' = children_named m (y :: c)) as Hy.
  { intros y [_ Hne] Hl. destruct (IH Hl) as (c' & -> & H2 & H3 & H4 & H5). exists (y :: c'). split; [reflexivity|].
    rewrite !children_named_cons. destruct y as [d| | |]; [now destruct (Hne d)| | |];
      (split; [assumption|]; split; [cbn [without filter]; now f_equal|]; split; [cbn; lia|]; intros m Hm; rewrite !children_named_cons; now apply H5). }
  destruct x as [d| | |]; cbn [take_child]; [|apply Hy; [split; [reflexivity|discriminate]|assumption]..].
  destruct (str_eqb (ename d) n) eqn:E.
  - injection H as -> <-. exists c. split; [reflexivity|]. cbn [without filter]. rewrite E. split; [reflexivity|].
    split; [reflexivity|]. split; [reflexivity|]. intros m Hm. rewrite children_named_cons.
    apply str_eqb_eq in E. rewrite E. destruct (str_eqb n m) eqn:F; [apply str_eqb_eq in F; congruence|reflexivity].
  - destruct (IH H) as (c' & -> & H2 & H3 & H4 & H5). exists (NElem d :: c'). split; [reflexivity|].
    split; [now rewrite children_named_cons, E|]. split; [cbn [without filter]; rewrite E; cbn; now f_equal|].
    split; [cbn; lia|]. intros m Hm. rewrite !children_named_cons, (H5 m Hm). reflexivity.
Qed.

Lemma without_named n m c : m <> n -> children_named m (without n c) = children_named m c.
Proof.
  intros Hm. induction c as [|x c IH]; [reflexivity|]. unfold without. cbn [filter]. fold (without n c).
  destruct x as [e| | |]; rewrite children_named_cons; [|rewrite children_named_cons; exact IH..].
  destruct (str_eqb (ename e) n) eqn:E; cbn [negb].
  - apply str_eqb_eq in E. rewrite E. destruct (str_eqb n m) eqn:F; [apply str_eqb_eq in F; congruence|exact IH].
  - rewrite children_named_cons, IH. reflexivity.
Qed.

(** The loop handles exactly the children with that name, in order. *)
Theorem while_take_named {B} n (f : element -> res B) fuel : forall c, length (children_named n c) <= fuel ->
  while_take fuel n f c =
  Some (match mapM f (children_named n c) with
        | Ok bs => Ok (bs, without n c) | Err x => Err x | Panic => Panic end).
Proof.
  induction fuel as [|k IH]; intros c Hc.
  - destruct (children_named n c) as [|e l] eqn:E; [|cbn in Hc; lia].
    destruct (take_child_none n c E) as [H1 H2]. cbn. now rewrite H1, H2.
  - destruct (children_named n c) as [|e l] eqn:E.
    + destruct (take_child_none n c E) as [H1 H2]. cbn. now rewrite H1, H2.
    + destruct (take_child_some n c e l E) as (c' & H1 & H2 & H3 & H4 & _). cbn [while_take mapM]. rewrite H1.
      destruct (f e); cbn [bind]; try reflexivity. rewrite IH by (rewrite H2; cbn in Hc; lia). rewrite H2, H3.
      destruct (mapM f l); reflexivity.
Qed.

Lemma children_named_length n c : length (children_named n c) <= length c.
Proof.
  induction c as [|x c IH]; [apply le_n|]. rewrite children_named_cons. destruct x as [e| | |]; cbn [length]; try lia.
  destruct (str_eqb (ename e) n); cbn [length]; lia.
Qed.

Lemma take_all_named {B} n (f : element -> res B) c :
  take_all n f c = (let* bs := mapM f (children_named (lit n) c) in Ok (bs, without (lit n) c)).
Proof.
  unfold take_all. rewrite while_take_named by apply children_named_length.
  destruct (mapM f (children_named (lit n) c)); reflexivity.
Qed.

Lemma take_opt_named n c : exists c', take_opt n c = (hd_error (children_named (lit n) c), c') /\
  forall m, m <> lit n -> children_named m c' = children_named m c.
Proof.
  unfold take_opt. destruct (children_named (lit n) c) as [|e l] eqn:E.
  - destruct (take_child_none _ _ E) as [-> _]. exists c. now split.
  - destruct (take_child_some _ _ _ _ E) as (c' & -> & _ & _ & _ & H). exists c'. now split.
Qed.

Section Read.
Context (L : numlib) {PD PL : Type} (pd0 : PD) (P : plistlib PL).

Lemma read_contour_named e : read_contour L e = mapM (read_point L) (named "point" e).
Proof.
  unfold read_contour, named. rewrite while_take_named by apply children_named_length.
  destruct (mapM _ _); reflexivity.
Qed.

Definition outline_by_kind (o : option element) : res (list (list glifpoint) * list glifcomponent) :=
  match o with
  | None => Ok ([], [])
  | Some e =>
      let* cs := mapM (fun c => mapM (read_point L) (named "point" c)) (named "contour" e) in
      let* ks := mapM (read_component L) (named "component" e) in
      Ok (filter nonempty cs, ks)
  end.
Lemma mapM_ext {A B} (f g : A -> res B) l : (forall x, In x l -> f x = g x) -> mapM f l = mapM g l.
Proof.
  induction l as [|x l IH]; intros H; [reflexivity|]. cbn [mapM]. rewrite (H x) by now left.
  rewrite IH; [reflexivity|]. intros y Hy. apply H. now right.
Qed.
Lemma read_outline_by_kind o : read_outline L o = outline_by_kind o.
Proof.
  destruct o as [e|]; [|reflexivity]. unfold read_outline, outline_by_kind. rewrite take_all_named.
  rewrite (mapM_ext _ _ _ (fun x _ => read_contour_named x)).
  fold (named "contour" e). destruct (mapM _ (named "contour" e)) as [cs| |]; try reflexivity.
  cbn [bind]. rewrite take_all_named, without_named by discriminate. fold (named "component" e).
  destruct (mapM (read_component L) (named "component" e)); reflexivity.
Qed.

(** Reading, one kind of children after the other. *)
Definition read_by_kind (ped : pedantry) (root : element) : res (glif PD PL) :=
  if negb (str_eqb (ename root) (lit "glyph")) then Err (EInput "Root element not <glyph>")
  else
    let* format := ok_or (get root "format") (EInput "no format in <glyph>") in
    if negb (str_eqb format (lit "2")) then Err (EInput "<glyph> format not 2")
    else
    let* name := ok_or (get root "name") (EInput "<glyph> has no name") in
    let* width := match hd_error (named "advance" root) with
                  | Some a => let* w := read_advance L ped a in Ok (Some w)
                  | None => Ok None
                  end in
    let* unicodes := mapM read_unicode (named "unicode" root) in
    let* anchors := mapM (read_anchor L pd0 ped) (named "anchor" root) in
    let* images := mapM (read_image L) (named "image" root) in
    let* guidelines := mapM (read_guideline L pd0) (named "guideline" root) in
    let note := match hd_error (named "note" root) with Some n => get_text n | None => None end in
    let* oc := outline_by_kind (hd_error (named "outline" root)) in
    let lib := read_lib P (hd_error (named "lib" root)) in
    let* o := outline_of_glif L (fst oc) in
    Ok (mkGlif (if nonempty o || nonempty (snd oc) then Some o else None) anchors
               (mkComponents name (snd oc) []) guidelines images width unicodes name note None lib).

Lemma read_element_by_kind ped root : read_element L pd0 P ped root = read_by_kind ped root.
Proof.
  unfold read_element, read_by_kind, named.
  destruct (str_eqb (ename root) (lit "glyph")); cbn [negb]; [|reflexivity].
  destruct (get root "format") as [fm|]; cbn [ok_or bind]; [|reflexivity].
  destruct (str_eqb fm (lit "2")); cbn [negb]; [|reflexivity].
  destruct (get root "name") as [nm|]; cbn [ok_or bind]; [|reflexivity].
  set (c := echildren root).
  destruct (take_opt_named "advance" c) as (c1 & -> & H1).
  destruct (match hd_error (children_named (lit "advance") c) with Some a => _ | None => _ end) as [w| |]; cbn [bind]; try reflexivity.
  rewrite take_all_named. rewrite (H1 (lit "unicode")) by discriminate.
  destruct (mapM _ (children_named (lit "unicode") c)) as [us| |]; cbn [bind]; try reflexivity.
  rewrite take_all_named, without_named, (H1 (lit "anchor")) by discriminate.
  destruct (mapM _ (children_named (lit "anchor") c)) as [an| |]; cbn [bind]; try reflexivity.
  rewrite take_all_named, !without_named, (H1 (lit "image")) by discriminate.
  destruct (mapM _ (children_named (lit "image") c)) as [im| |]; cbn [bind]; try reflexivity.
  rewrite take_all_named, !without_named, (H1 (lit "guideline")) by discriminate.
  destruct (mapM _ (children_named (lit "guideline") c)) as [gl| |]; cbn [bind]; try reflexivity.
  match goal with |- context [take_opt "note" ?x] => destruct (take_opt_named "note" x) as (c2 & -> & H2) end.
  rewrite !without_named, (H1 (lit "note")) by discriminate.
  destruct (take_opt_named "outline" c2) as (c3 & -> & H3).
  rewrite (H2 (lit "outline")), !without_named, (H1 (lit "outline")) by discriminate.
  rewrite read_outline_by_kind.
  destruct (outline_by_kind (hd_error (children_named (lit "outline") c))) as [[go ks]| |]; cbn [bind]; try reflexivity.
  destruct (take_opt_named "lib" c3) as (c4 & -> & H4).
  rewrite (H3 (lit "lib")), (H2 (lit "lib")), !without_named, (H1 (lit "lib")) by discriminate.
  cbn [fst snd]. reflexivity.
Qed.

(** Each reader only looks at the attributes. *)
Lemma get_same e e' k : same_attributes e e' -> get e k = get e' k.
Proof. intros H. apply H. Qed.
Lemma load_matrix_same e e' m : same_attributes e e' -> load_matrix L e m = load_matrix L e' m.
Proof. intros H. unfold load_matrix, load_member. rewrite !(get_same e e' _ H). reflexivity. Qed.
Lemma read_color_same e e' : same_attributes e e' -> read_color L e = read_color L e'.
Proof. intros H. unfold read_color. now rewrite (get_same e e' _ H). Qed.
Lemma read_advance_same ped e e' : same_attributes e e' -> read_advance L ped e = read_advance L ped e'.
Proof. intros H. unfold read_advance. now rewrite (get_same e e' _ H). Qed.
Lemma read_unicode_same e e' : same_attributes e e' -> read_unicode e = read_unicode e'.
Proof. intros H. unfold read_unicode. now rewrite (get_same e e' _ H). Qed.
Lemma read_anchor_same ped e e' : same_attributes e e' -> read_anchor L pd0 ped e = read_anchor L pd0 ped e'.
Proof. intros H. unfold read_anchor. now rewrite !(get_same e e' _ H). Qed.
Lemma read_image_same e e' : same_attributes e e' -> read_image L e = read_image L e'.
Proof.
  intros H. unfold read_image. rewrite !(get_same e e' _ H), (read_color_same e e' H).
  destruct (get e' "fileName") as [s|]; [|reflexivity]. cbn [ok_or bind]. now rewrite (load_matrix_same e e' _ H).
Qed.
Lemma read_guideline_same e e' : same_attributes e e' -> read_guideline L pd0 e = read_guideline L pd0 e'.
Proof. intros H. unfold read_guideline. now rewrite !(get_same e e' _ H), (read_color_same e e' H). Qed.
Lemma read_component_same e e' : same_attributes e e' -> read_component L e = read_component L e'.
Proof. intros H. unfold read_component. now rewrite !(get_same e e' _ H), (load_matrix_same e e' _ H). Qed.
Lemma read_point_same e e' : same_attributes e e' -> read_point L e = read_point L e'.
Proof. intros H. unfold read_point. now rewrite !(get_same e e' _ H). Qed.

Lemma mapM_alike {B} (f : element -> res B) (R : element -> element -> Prop) l l' :
  (forall e e', R e e' -> f e = f e') -> Forall2 R l l' -> mapM f l = mapM f l'.
Proof. intros Hf. induction 1 as [|x y l l' Hxy Hl IH]; [reflexivity|]. cbn [mapM]. now rewrite (Hf x y Hxy), IH. Qed.
Lemma hd_alike (R : element -> element -> Prop) l l' : Forall2 R l l' ->
  (hd_error l = None /\ hd_error l' = None) \/ exists e e', hd_error l = Some e /\ hd_error l' = Some e' /\ R e e'.
Proof. intros H. destruct H as [|x y l l2 Hxy Hl]; [now left|]. right. exists x, y. now repeat split. Qed.

Lemma read_alike ped e e' : glyph_alike e e' -> read_element L pd0 P ped e = read_element L pd0 P ped e'.
Proof.
  intros (Hn & Ha & H1 & H2 & H3 & H4 & H5 & H6 & H7 & H8). rewrite !read_element_by_kind. unfold read_by_kind.
  unfold each_alike in *.
  rewrite Hn, !(get_same e e' _ Ha).
  rewrite (mapM_alike _ _ _ _ read_unicode_same H2), (mapM_alike _ _ _ _ (read_anchor_same ped) H3),
    (mapM_alike _ _ _ _ read_image_same H4), (mapM_alike _ _ _ _ read_guideline_same H5).
  replace (match hd_error (named "advance" e) with Some a => _ | None => _ end)
    with (match hd_error (named "advance" e') with Some a => let* w := read_advance L ped a in Ok (Some w) | None => Ok None end).
  2:{ destruct (hd_alike _ _ _ H1) as [[-> ->]|(a & a' & -> & -> & Haa)]; [reflexivity|]. now rewrite (read_advance_same ped a a' Haa). }
  replace (match hd_error (named "note" e) with Some a => _ | None => _ end)
    with (match hd_error (named "note" e') with Some n => get_text n | None => None end).
  2:{ destruct (hd_alike _ _ _ H6) as [[-> ->]|(a & a' & -> & -> & Haa)]; [reflexivity|]. rewrite !get_text_in. now symmetry. }
  replace (outline_by_kind (hd_error (named "outline" e))) with (outline_by_kind (hd_error (named "outline" e'))).
  2:{ destruct (hd_alike _ _ _ H7) as [[-> ->]|(a & a' & -> & -> & Hc & Hk)]; [reflexivity|]. cbn [outline_by_kind].
      rewrite (mapM_alike _ _ _ _ read_component_same Hk).
      erewrite (mapM_alike _ contour_alike (named "contour" a)); [reflexivity| |exact Hc].
      intros x y Hxy. now apply (mapM_alike _ _ _ _ read_point_same). }
  replace (hd_error (named "lib" e)) with (hd_error (named "lib" e')); [reflexivity|].
  destruct (hd_alike _ _ _ H8) as [[-> ->]|(a & a' & -> & -> & ->)]; reflexivity.
Qed.

End Read.
