(** Facts on the XML text of glyphs. *)
Require Import Coq.Strings.String Coq.Lists.List Coq.Arith.Arith Coq.NArith.NArith Coq.ZArith.ZArith Coq.Bool.Bool Coq.Floats.SpecFloat Coq.micromega.Lia.
Require Import Verif.Model.Base Verif.Model.Text Verif.Model.Float Verif.Model.Num Verif.Model.RustNum Verif.Model.Point Verif.Model.Contour Verif.Model.Conv
  Verif.Model.Names Verif.Model.Pedantry Verif.Model.Color Verif.Model.Xml Verif.Model.XmlText Verif.Model.Parts Verif.Model.Read Verif.Model.Write Verif.Model.Interop
  Verif.Spec.GlyphSpec Verif.Spec.XmlTextSpec
  Verif.Facts.TextFacts Verif.Facts.NamesFacts Verif.Facts.RustNumFacts Verif.Facts.XmlFacts Verif.Facts.GlyphFacts Verif.Facts.XmlTextFacts.
Import ListNotations.
Local Open Scope N_scope.

(** ** Literals *)
Definition ascii_letter (c : N) : bool := ((65 <=? c) && (c <=? 90)) || ((97 <=? c) && (c <=? 122)).
Lemma letters_name s : s <> [] -> forallb ascii_letter s = true -> plain_xml_name s.
Proof.
  assert (forall c, ascii_letter c = true -> letter c) as H by (intros c; unfold ascii_letter, letter; lia).
  destruct s as [|c t]; [congruence|]. intros _ E. cbn in E. apply andb_true_iff in E as [E1 E2]. exists c, t. split; [reflexivity|].
  split; [now apply H|]. apply Forall_forall. intros d Hd. left. apply H. rewrite forallb_forall in E2. now apply E2.
Qed.
Ltac lit_name := apply letters_name; [discriminate|vm_compute; reflexivity].
Lemma ascii_attribute s : (forall c, In c s -> 32 <= c <= 126) -> attribute_text s.
Proof. intros H. apply Forall_forall. intros c Hc. specialize (H c Hc). unfold document_char. lia. Qed.
Lemma lit_attribute s : forallb (fun c => (32 <=? c) && (c <=? 126)) (lit s) = true -> attribute_text (lit s).
Proof. intros H. apply ascii_attribute. intros c Hc. rewrite forallb_forall in H. specialize (H c Hc). cbn beta in H. lia. Qed.

(** ** Numbers *)
Lemma show_scaled_ascii M k c : In c (show_scaled M k) -> 32 <= c <= 126.
Proof.
  unfold show_scaled. destruct k as [|k].
  - intros H. apply pad_digits, is_digit_iff in H. lia.
  - rewrite !in_app_iff. intros [H|[[<-|[]]|H]]; [|lia|].
    + apply (in_or_app _ (skipn (List.length (pad_left (S (S k)) (show_dec M)) - S k) (pad_left (S (S k)) (show_dec M)))) in H || idtac.
      assert (In c (pad_left (S (S k)) (show_dec M))) as X by (rewrite <- (firstn_skipn (List.length (pad_left (S (S k)) (show_dec M)) - S k)); apply in_or_app; now left).
      apply pad_digits, is_digit_iff in X. lia.
    + assert (In c (pad_left (S (S k)) (show_dec M))) as X by (rewrite <- (firstn_skipn (List.length (pad_left (S (S k)) (show_dec M)) - S k)); apply in_or_app; now right).
      apply pad_digits, is_digit_iff in X. lia.
Qed.
Lemma rust_f32_ascii f c : In c (rust_f32_show f) -> 32 <= c <= 126.
Proof.
  destruct f as [s|s| |s m e]; cbn [rust_f32_show].
  1-3: try destruct s; vm_compute; intros H; repeat (destruct H as [<-|H]; [split; discriminate|]); destruct H.
  rewrite in_app_iff. intros [H|H]; [destruct s; [destruct H as [<-|[]]; lia|destruct H]|].
  unfold show_abs in H. destruct (find _ _) as [n|]; [destruct (round_decimal n _)|destruct (exact_decimal m e)]; now apply show_scaled_ascii in H.
Qed.
Lemma rust_carried : carried_numbers rust_num.
Proof.
  assert (forall f, attribute_text (rust_f32_show f)) as F by (intros f; apply ascii_attribute; intros c; apply rust_f32_ascii).
  split; [|exact F]. intros [z|f]; [|apply F]. cbn [rust_num iof_show rust_iof_show]. apply ascii_attribute. intros c.
  unfold show_int. destruct z; intros H; [apply show_dec_chars in H; lia|apply show_dec_chars in H; lia|].
  destruct H as [<-|H]; [lia|apply show_dec_chars in H; lia].
Qed.

(** ** Elements *)
Lemma attr_insert_keys k v (a : list (str * str)) x : In x (map fst (attr_insert k v a)) <-> x = k \/ In x (map fst a).
Proof.
  induction a as [|[k' v'] a IH]; [cbn; intuition|]. cbn [attr_insert].
  destruct (str_eqb_spec k k') as [<-|_]; cbn [map In fst]; [intuition|]. rewrite IH. intuition.
Qed.
Lemma carried_insert k v e : carried e -> plain_xml_name (lit k) -> lit k <> lit "xmlns" -> attribute_text v -> carried (insert k v e).
Proof.
  destruct e as [n a ch]. intros (Hn & Ha & Hd & Hs & Hc) Hk Hx Hv. cbn [insert]. split; [exact Hn|]. split; [|split; [|now split]].
  - clear Hd. induction Ha as [|[k' v'] a H Ha IH]; [now constructor|]. cbn [attr_insert]. destruct (str_eqb_spec (lit k) k') as [<-|_]; constructor; auto.
  - clear - Hd. induction a as [|[k' v'] a IH]; [repeat constructor; intros []|]. inversion Hd as [|? ? D1 D2]; subst. cbn [attr_insert].
    destruct (str_eqb_spec (lit k) k') as [<-|Hne]; [exact Hd|]. cbn [map fst]. constructor; [|now apply IH].
    cbn [fst] in D1. rewrite attr_insert_keys. intuition congruence.
Qed.
Lemma carried_insert_opt k o e : carried e -> plain_xml_name (lit k) -> lit k <> lit "xmlns" -> opt_text o -> carried (insert_opt k o e).
Proof. intros He Hk Hx Ho. destruct o as [v|]; [|exact He]. cbn. apply carried_insert; auto. Qed.
Lemma carried_new n : plain_xml_name (lit n) -> carried (new_element n).
Proof. intros H. split; [exact H|]. split; [constructor|]. split; [constructor|]. split; [|exact I]. intros l s s' r E. destruct l; discriminate. Qed.
Ltac ins := first [apply carried_insert; [|lit_name|vm_compute; discriminate|] | apply carried_insert_opt; [|lit_name|vm_compute; discriminate|] | apply carried_new; lit_name].

Lemma carried_parent n (es : list element) : plain_xml_name (lit n) -> Forall carried es -> carried (Element (lit n) [] (map NElem es)).
Proof.
  intros Hn H. split; [exact Hn|]. split; [constructor|]. split; [constructor|]. split.
  - intros l s s' r E. assert (In (NText s) (map NElem es)) as X by (rewrite E; apply in_or_app; right; now left). apply in_map_iff in X as (e & X & _). discriminate.
  - induction H as [|e es He _ IH]; [exact I|]. split; assumption.
Qed.

Section Glyph.
Context (L : numlib) {PD PL : Type} (pd0 : PD) (P : plistlib PL) (dbg : bool) (HN : carried_numbers L).

Lemma carried_matrix ident m e : carried e -> opt_text ident -> carried (write_matrix L ident m e).
Proof. intros He Hi. unfold write_matrix. do 6 (ins; [|apply HN]). ins; assumption. Qed.
Lemma carried_anchor (a : anchor PD) : opt_text (an_class a) -> carried (anchor_xml L a).
Proof. intros H. unfold anchor_xml. ins; [|exact H]. do 2 (ins; [|apply HN]). ins. Qed.
Lemma carried_color c : attribute_text (color_show L c).
Proof.
  unfold color_show, attribute_text. rewrite !Forall_app. assert (Forall (fun c => document_char c /\ c <> 9) [44]) by (repeat constructor; unfold document_char; lia).
  repeat split; first [apply HN|assumption].
Qed.
Lemma carried_guideline (g : guideline PD) : opt_text (gl_name g) -> opt_text (gl_identifier g) -> carried (guideline_xml L g).
Proof.
  intros H1 H2. unfold guideline_xml. ins; [|exact H2]. ins; [|exact H1]. ins.
  - do 3 (ins; [|apply HN]). ins.
  - intros s. destruct (gl_color g) as [c|]; [|discriminate]. intros [= <-]. apply carried_color.
Qed.
Lemma carried_component c : attribute_text (c_base c) -> opt_text (c_identifier c) -> carried (component_xml L c).
Proof. intros H1 H2. unfold component_xml. apply carried_matrix; [|exact H2]. ins; [ins|exact H1]. Qed.
Lemma carried_uint radix n : 2 <= radix <= 16 -> attribute_text (show_uint radix n).
Proof. intros H. apply ascii_attribute. intros c Hc. apply show_uint_chars in Hc; [|lia|lia]. unfold is_digit_char in Hc. lia. Qed.
Lemma carried_gp g e : gp_xml L dbg g = Ok e -> opt_text (gname g) -> carried e.
Proof.
  intros H Hn. unfold gp_xml in H.
  set (e0 := insert "y" (iof_show L (gy g)) (insert "x" (iof_show L (gx g)) (new_element "point"))) in H.
  assert (carried e0) as H0 by (unfold e0; do 2 (ins; [|apply HN]); ins).
  assert (carried (insert_opt "name" (gname g) (if str_eqb (ptype_show (gptype g)) (lit "offcurve") then e0 else insert "type" (ptype_show (gptype g)) e0))) as H1.
  { ins; [|exact Hn]. destruct (str_eqb _ _); [exact H0|]. ins; [exact H0|]. destruct (gptype g); now apply lit_attribute. }
  destruct (gsmooth g); [destruct (dbg && ptype_eqb (gptype g) OffCurve)|]; [discriminate| |].
  - injection H as <-. ins; [exact H1|now apply lit_attribute].
  - now injection H as <-.
Qed.
Lemma mapM_carried {A} (f : A -> res element) (Q : A -> Prop) l es : (forall a e, Q a -> f a = Ok e -> carried e) -> Forall Q l -> mapM f l = Ok es -> Forall carried es.
Proof.
  intros H F. revert es. induction F as [|a l Ha _ IH]; intros es E; cbn [mapM] in E; [now injection E as <-|].
  destruct (f a) as [e| |] eqn:Ee; try discriminate. cbn [bind] in E. destruct (mapM f l) as [es'| |]; try discriminate. injection E as <-. constructor; eauto.
Qed.
Lemma carried_contour (c : contour PD) e : Forall (fun p => opt_text (pname p)) c -> contour_xml L dbg c = Ok e -> carried e.
Proof.
  intros Hc. unfold contour_xml. destruct (into_glifpoints L dbg _ c) as [[gps| |]|] eqn:E; try discriminate. unfold gcontour_xml.
  destruct (mapM (gp_xml L dbg) gps) as [es| |] eqn:Em; try discriminate. intros [= <-]. apply carried_parent; [lit_name|].
  apply (mapM_carried (gp_xml L dbg) (fun g => opt_text (gname g)) gps es (fun a e Ha He => carried_gp a e He Ha)); [|exact Em].
  apply Forall_forall. intros g Hg. destruct (into_glifpoints_in L dbg _ c gps g E Hg) as (p & Hp & [->|(w & ->)]).
  - cbn. rewrite Forall_forall in Hc. now apply Hc.
  - unfold gp_from_handle. destruct (handle_or_colocated p w _ _). intros s Hs. discriminate.
Qed.

Lemma echildren_insert k v e : echildren (insert k v e) = echildren e. Proof. now destruct e. Qed.
Lemma echildren_insert_opt k o e : echildren (insert_opt k o e) = echildren e. Proof. destruct o; [apply echildren_insert|reflexivity]. Qed.
Lemma unblank_leaf e : echildren e = [] -> unblank e = e.
Proof. destruct e as [n a ch]. cbn. now intros ->. Qed.
Lemma unblank_parent n a (es : list element) : Forall (fun x => unblank x = x) es -> unblank (Element n a (map NElem es)) = Element n a (map NElem es).
Proof. intros H. cbn [unblank]. f_equal. induction H as [|e es He _ IH]; [reflexivity|]. cbn [map unblank_nodes]. now rewrite He, IH. Qed.

(** Carried, without blanks, and not a note. *)
Definition fine (e : element) : Prop := carried e /\ unblank e = e /\ ename e <> lit "note".
Lemma fine_leaf e n : carried e -> echildren e = [] -> ename e = lit n -> lit n <> lit "note" -> fine e.
Proof. intros H1 H2 H3 H4. split; [exact H1|]. split; [now apply unblank_leaf|congruence]. Qed.
Ltac leaf nm := apply (fun e => fine_leaf e nm); [|rewrite ?echildren_insert_opt, ?echildren_insert, ?echildren_insert_opt, ?echildren_insert; reflexivity|rewrite ?ename_insert_opt, ?ename_insert, ?ename_insert_opt, ?ename_insert; reflexivity|vm_compute; discriminate].

Definition note_nodes (g : glif PD PL) : list node :=
  match g_note g with Some n => [NElem (Element (lit "note") [] [NText n])] | None => [] end.
(** The tree of a glyph: the note, and what stands before and after. *)
Lemma glif_tree (g : glif PD PL) e : glif_xml L P dbg g = Ok e -> carried_glyph P g ->
  exists A, e = Element (lit "glyph") [(lit "name", g_name g); (lit "format", lit "2")] (map NElem A ++ note_nodes g ++ lib_nodes P (g_lib g)) /\
    glif_xml L P dbg (noteless g) = Ok (Element (lit "glyph") [(lit "name", g_name g); (lit "format", lit "2")] (map NElem A ++ lib_nodes P (g_lib g))) /\
    Forall fine A.
Proof.
  intros H (_ & Ha & Hg & Hc & Hi & Ho & _ & _). unfold glif_xml in *. cbn [noteless g_outline g_name g_width g_unicode g_anchors g_components g_guidelines g_images g_note g_lib].
  destruct (outline_children L dbg (g_outline g)) as [oc| |] eqn:Eo; try discriminate. cbn [bind] in *. injection H as <-.
  assert (exists ces, oc = map NElem ces /\ Forall carried ces /\ Forall (fun x => unblank x = x) ces) as (ces & -> & C1 & C2).
  { unfold outline_children in Eo. unfold contours in Ho. destruct (g_outline g) as [cs|]; [|injection Eo as <-; exists []; now repeat constructor].
    destruct (mapM (contour_xml L dbg) cs) as [es| |] eqn:Em; try discriminate. cbn [bind] in Eo. injection Eo as <-. exists es. split; [reflexivity|]. split.
    - exact (mapM_carried _ _ cs es carried_contour Ho Em).
    - clear - Em. revert es Em. induction cs as [|c cs IH]; intros es Em; cbn [mapM] in Em; [now injection Em as <-|].
      destruct (contour_xml L dbg c) as [e| |] eqn:Ee; try discriminate. cbn [bind] in Em. destruct (mapM (contour_xml L dbg) cs) as [es'| |]; try discriminate.
      injection Em as <-. constructor; [|now apply IH]. clear - Ee. unfold contour_xml in Ee. destruct (into_glifpoints L dbg _ c) as [[gps| |]|]; try discriminate.
      unfold gcontour_xml in Ee. destruct (mapM (gp_xml L dbg) gps) as [ps| |] eqn:Em; try discriminate. injection Ee as <-. apply unblank_parent.
      revert ps Em. induction gps as [|g gps IH]; intros ps Em; cbn [mapM] in Em; [now injection Em as <-|].
      destruct (gp_xml L dbg g) as [e| |] eqn:Ee; try discriminate. cbn [bind] in Em. destruct (mapM (gp_xml L dbg) gps) as [ps'| |]; try discriminate.
      injection Em as <-. constructor; [|now apply IH]. apply unblank_leaf. unfold gp_xml in Ee.
      assert (forall X : element, Ok X = Ok e -> X = e) as OK by (intros X E; now injection E).
      destruct (gsmooth g); [destruct (dbg && ptype_eqb (gptype g) OffCurve)|]; try discriminate; apply OK in Ee; rewrite <- Ee;
        rewrite ?echildren_insert, ?echildren_insert_opt; destruct (str_eqb _ _); rewrite ?echildren_insert; reflexivity. }
  set (kes := map (component_xml L) (cs_vec (g_components g))).
  assert (Forall carried kes /\ Forall (fun x => unblank x = x) kes) as [K1 K2].
  { unfold kes. split; apply Forall_forall; intros e He; apply in_map_iff in He as (c & <- & Hc').
    - rewrite Forall_forall in Hc. destruct (Hc c Hc'). now apply carried_component.
    - apply unblank_leaf. unfold component_xml, write_matrix. rewrite !echildren_insert, echildren_insert_opt, echildren_insert. reflexivity. }
  exists (match g_width g with Some w => [advance_xml w] | None => [] end ++ map codepoint_xml (g_unicode g) ++ map (anchor_xml L) (g_anchors g) ++
    match ces ++ kes with [] => [] | _ :: _ => [Element (lit "outline") [] (map NElem (ces ++ kes))] end ++
    flat_map (fun i => match image_try_xml L i with Ok e => [e] | _ => [] end) (g_images g) ++ map (guideline_xml L) (g_guidelines g)).
  assert (forall X, match g_width g with Some w => [NElem (advance_xml w)] | None => [] end ++
    map (fun c => NElem (codepoint_xml c)) (g_unicode g) ++ map (fun a => NElem (anchor_xml L a)) (g_anchors g) ++
    match map NElem ces ++ map (fun c => NElem (component_xml L c)) (cs_vec (g_components g)) with [] => [] | _ :: _ => [NElem (Element (lit "outline") [] (map NElem ces ++ map (fun c => NElem (component_xml L c)) (cs_vec (g_components g))))] end ++
    flat_map (image_nodes L) (g_images g) ++ map (fun x => NElem (guideline_xml L x)) (g_guidelines g) ++ X =
    map NElem (match g_width g with Some w => [advance_xml w] | None => [] end ++ map codepoint_xml (g_unicode g) ++ map (anchor_xml L) (g_anchors g) ++
    match ces ++ kes with [] => [] | _ :: _ => [Element (lit "outline") [] (map NElem (ces ++ kes))] end ++
    flat_map (fun i => match image_try_xml L i with Ok e => [e] | _ => [] end) (g_images g) ++ map (guideline_xml L) (g_guidelines g)) ++ X) as EX.
  { intros X. rewrite !map_app, !map_map, <- !app_assoc. f_equal; [now destruct (g_width g)|]. do 2 f_equal. f_equal.
    - unfold kes. rewrite <- (map_map (component_xml L) NElem), <- map_app. now destruct (ces ++ map (component_xml L) (cs_vec (g_components g))).
    - f_equal. generalize (g_images g). clear. induction l as [|i l IH]; [reflexivity|]. cbn [flat_map]. rewrite IH, map_app. f_equal. unfold image_nodes. now destruct (image_try_xml L i). }
  split; [|split].
  - cbn [insert new_element ename eattrs]. f_equal. exact (EX _).
  - f_equal. cbn [insert new_element ename eattrs]. f_equal. exact (EX _).
  - rewrite !Forall_app. repeat split.
    + destruct (g_width g); constructor; [|constructor]. unfold advance_xml. leaf "advance"%string. ins; [ins|]. apply carried_uint. lia.
    + apply Forall_forall. intros e He. apply in_map_iff in He as (c & <- & _). unfold codepoint_xml. leaf "unicode"%string. ins; [ins|]. apply carried_uint. lia.
    + apply Forall_forall. intros e He. apply in_map_iff in He as (a & <- & Ha'). rewrite Forall_forall in Ha.
      pose proof (carried_anchor a (Ha a Ha')) as X. revert X. unfold anchor_xml. intros X. leaf "anchor"%string. exact X.
    + destruct (ces ++ kes) as [|x l] eqn:E; [constructor|rewrite <- E]. constructor; [|constructor]. split; [|split; [|vm_compute; discriminate]].
      * apply carried_parent; [lit_name|]. apply Forall_app. now split.
      * apply unblank_parent. apply Forall_app. now split.
    + apply Forall_forall. intros e He. apply in_flat_map in He as (i & Hi' & He). rewrite Forall_forall in Hi. specialize (Hi i Hi'). unfold image_try_xml in He.
      destruct (i_filename i) as [s|s]; [|destruct He]. destruct He as [<-|[]]. cbn [os_text] in Hi.
      assert (carried (write_matrix L (i_identifier i) (i_matrix i) (insert "fileName" s (new_element "image")))) as X.
      { apply carried_matrix; [|exact (proj2 Hi)]. ins; [ins|exact (proj1 Hi)]. }
      revert X. unfold write_matrix. intros X. leaf "image"%string. exact X.
    + apply Forall_forall. intros e He. apply in_map_iff in He as (x & <- & Hx). rewrite Forall_forall in Hg. destruct (Hg x Hx) as [H1 H2].
      pose proof (carried_guideline x H1 H2) as X. revert X. unfold guideline_xml. intros X. leaf "guideline"%string. exact X.
Qed.

Lemma carried_nodes_app (a b : list node) : carried_nodes carried (a ++ b) <-> carried_nodes carried a /\ carried_nodes carried b.
Proof. induction a as [|[e|s|s|] a IH]; cbn [app carried_nodes]; tauto. Qed.
Lemma unblank_nodes_app (a b : list node) : unblank_nodes unblank (a ++ b) = unblank_nodes unblank a ++ unblank_nodes unblank b.
Proof. induction a as [|[e|s|s|] a IH]; cbn [app unblank_nodes]; rewrite ?IH; [reflexivity|reflexivity| |reflexivity|reflexivity]. now destruct (blankb s). Qed.

(** The relation of the specification is the function. *)
Scheme unblanked_mut := Minimality for unblanked Sort Prop
  with unblanked_nodes_mut := Minimality for unblanked_nodes Sort Prop.
Lemma unblanked_nodes_eq l l' : unblanked_nodes l l' -> l' = unblank_nodes unblank l.
Proof.
  apply (unblanked_nodes_mut (fun e e' => e' = unblank e) (fun l l' => l' = unblank_nodes unblank l)).
  - intros n a ch ch' _ ->. reflexivity.
  - reflexivity.
  - intros e e' t t' _ -> _ ->. reflexivity.
  - intros s t t' Hs _ ->. cbn [unblank_nodes]. apply blankb_false in Hs. now rewrite Hs.
  - intros s t t' Hs _ ->. cbn [unblank_nodes]. rewrite (proj2 (blankb_iff s) Hs). reflexivity.
  - intros s t t' _ ->. reflexivity.
  - intros t t' _ ->. reflexivity.
Qed.

Lemma lib_tree (l : lib PL) : carried_lib P l -> lib_nodes P l = [] \/ exists x, lib_nodes P l = [NElem x] /\ carried x /\ unblank x = x /\ ename x = lit "lib".
Proof.
  intros H. unfold lib_nodes. destruct l as [|d|e].
  - now left.
  - destruct (element_of_plist P d) as [e|] eqn:E; [|now left]. right. destruct (H e (or_intror (ex_intro _ d (conj eq_refl E)))) as [H1 H2]. destruct e as [n a c]. cbn [echildren] in *.
    eexists. split; [reflexivity|]. split; [exact H1|]. split; [|reflexivity]. cbn [unblank]. f_equal. symmetry. now apply unblanked_nodes_eq.
  - right. destruct (H e (or_introl eq_refl)) as [H1 H2]. destruct e as [n a c]. cbn [echildren] in *.
    eexists. split; [reflexivity|]. split; [exact H1|]. split; [|reflexivity]. cbn [unblank]. f_equal. symmetry. now apply unblanked_nodes_eq.
Qed.
Lemma carried_nelems (es : list element) : Forall carried es -> carried_nodes carried (map NElem es).
Proof. induction 1 as [|e es He _ IH]; [exact I|]. split; assumption. Qed.
Lemma unblank_nelems (es : list element) : Forall (fun x => unblank x = x) es -> unblank_nodes unblank (map NElem es) = map NElem es.
Proof. induction 1 as [|e es He _ IH]; [reflexivity|]. cbn [map unblank_nodes]. now rewrite He, IH. Qed.

Lemma glif_carried (g : glif PD PL) e : glif_xml L P dbg g = Ok e -> carried_glyph P g ->
  carried e /\
  (~ blank_note g -> unblank e = e) /\
  (blank_note g -> exists e0, glif_xml L P dbg (noteless g) = Ok e0 /\ forall ped, read_element L pd0 P ped (unblank e) = read_element L pd0 P ped e0).
Proof.
  intros H Hg. destruct (glif_tree g e H Hg) as (A & -> & E0 & F). destruct Hg as (Hn & _ & _ & _ & _ & _ & Hnote & Hlib).
  assert (Forall carried A /\ Forall (fun x => unblank x = x) A /\ Forall (fun x => ename x <> lit "note") A) as (F1 & F2 & F3).
  { repeat split; (eapply Forall_impl; [|exact F]); unfold fine; tauto. }
  assert (exists B, lib_nodes P (g_lib g) = map NElem B /\ Forall carried B /\ Forall (fun x => unblank x = x) B /\ Forall (fun x => ename x <> lit "note") B) as (B & EB & B1 & B2 & B3).
  { destruct (lib_tree (g_lib g) Hlib) as [->|(x & -> & X1 & X2 & X3)]; [exists []; repeat split; constructor|]. exists [x]. split; [reflexivity|].
    repeat split; (constructor; [|constructor]); auto. rewrite X3. vm_compute. discriminate. }
  rewrite EB in *.
  assert (exists N, note_nodes g = map NElem N /\ Forall carried N) as (N & EN & N1).
  { unfold note_nodes. destruct (g_note g) as [s|]; [|exists []; split; [reflexivity|constructor]]. exists [Element (lit "note") [] [NText s]]. split; [reflexivity|].
    constructor; [|constructor]. split; [lit_name|]. split; [constructor|]. split; [constructor|]. split; [|split; [now apply Hnote|exact I]].
    intros l t t' r E. destruct l as [|x [|y l]]; discriminate. }
  split; [|split].
  - rewrite EN, <- !map_app. split; [lit_name|]. split; [|split; [|split]].
    + constructor; [split; [lit_name|]; split; [vm_compute; discriminate|exact Hn]|]. constructor; [|constructor]. split; [lit_name|]. split; [vm_compute; discriminate|now apply lit_attribute].
    + constructor; [|constructor; [intros []|constructor]]. intros [X|[]]. vm_compute in X. discriminate.
    + intros l t t' r E. assert (In (NText t) (map NElem (A ++ N ++ B))) as X by (rewrite E; apply in_or_app; right; now left). apply in_map_iff in X as (x & X & _). discriminate.
    + apply carried_nelems. rewrite !Forall_app. now repeat split.
  - intros Hb. cbn [unblank]. f_equal. rewrite !unblank_nodes_app, (unblank_nelems A F2), (unblank_nelems B B2). do 2 f_equal.
    unfold note_nodes, blank_note in *. destruct (g_note g) as [s|]; [|reflexivity]. cbn [unblank_nodes unblank].
    destruct (blankb s) eqn:Es; [|reflexivity]. exfalso. apply Hb. exists s. split; [reflexivity|now apply blankb_iff].
  - intros (s & Es & Hs). eexists. split; [exact E0|]. intros ped. cbn [unblank]. rewrite !unblank_nodes_app, (unblank_nelems A F2), (unblank_nelems B B2).
    unfold note_nodes. rewrite Es. cbn [unblank_nodes unblank]. rewrite (proj2 (blankb_iff s) Hs).
    rewrite !read_element_by_kind. unfold read_by_kind.
    assert (forall n, named n (Element (lit "glyph") [(lit "name", g_name g); (lit "format", lit "2")] (map NElem A ++ [NElem (Element (lit "note") [] [])] ++ map NElem B)) =
      if str_eqb (lit "note") (lit n) then [Element (lit "note") [] []] else
      named n (Element (lit "glyph") [(lit "name", g_name g); (lit "format", lit "2")] (map NElem A ++ map NElem B))) as EQ.
    { intros n. unfold named. cbn [echildren]. rewrite !children_named_app, children_named_cons. cbn [ename].
      destruct (str_eqb_spec (lit "note") (lit n)) as [E|E]; [|reflexivity]. rewrite <- E.
      assert (forall C, Forall (fun x => ename x <> lit "note") C -> children_named (lit "note") (map NElem C) = []) as Z.
      { intros C HC. induction HC as [|x C Hx _ IH]; [reflexivity|]. cbn [map]. rewrite children_named_cons, IH. now rewrite str_eqb_neq. }
      rewrite (Z A F3), (Z B B3). reflexivity. }
    assert (named "note" (Element (lit "glyph") [(lit "name", g_name g); (lit "format", lit "2")] (map NElem A ++ map NElem B)) = []) as EZ.
    { unfold named. cbn [echildren]. rewrite !children_named_app.
      assert (forall C, Forall (fun x => ename x <> lit "note") C -> children_named (lit "note") (map NElem C) = []) as Z.
      { intros C HC. induction HC as [|x C Hx _ IH]; [reflexivity|]. cbn [map]. rewrite children_named_cons, IH. now rewrite str_eqb_neq. }
      now rewrite (Z A F3), (Z B B3). }
    rewrite !EQ, EZ. reflexivity.
Qed.
End Glyph.
