(** How the structs and enums of a glyph are read. *)
Require Import Coq.Strings.String Coq.Lists.List Coq.NArith.NArith Coq.ZArith.ZArith Coq.Arith.Arith Coq.Bool.Bool Coq.micromega.Lia.
Require Import Verif.Model.Base Verif.Model.Text Verif.Model.Float Verif.Model.Num Verif.Model.Point
  Verif.Model.Contour Verif.Model.Names Verif.Model.Color Verif.Model.Xml Verif.Model.Parts Verif.Model.Component
  Verif.Model.Mpoint Verif.Model.Mfek Verif.Model.Serde Verif.Spec.SerdeSpec Verif.Facts.NamesFacts Verif.Facts.SerdeFacts.
Import ListNotations.
Local Open Scope string_scope.

(** * Which fields are read *)

Lemma lookup_same n d l : lookup n ((n, d) :: l) = Some d.
Proof. cbn [lookup]. assert (E : str_eqb n n = true) by now apply str_eqb_eq. now rewrite E. Qed.
Lemma lookup_other n m d l : str_eqb m n = false -> lookup n ((m, d) :: l) = lookup n l.
Proof. intros E. cbn [lookup]. now rewrite E. Qed.

Ltac open_chain := cbn [source_of obind]; unfold req, opt, dflt, field.
Ltac use_missing :=
  match goal with H : lookup ?n ?l = None |- _ =>
    rewrite H; cbn [obind]; repeat (match goal with
    | |- obind ?t _ = None => let E := fresh in destruct t eqn:E; cbn [obind]; [|reflexivity]
    end); try reflexivity; try discriminate
  end.
Ltac missing de := intros n l I H; cbn [In] in I; unfold de; open_chain;
  repeat (destruct I as [<-|I]; [use_missing|]); try contradiction.
Ltac use_default :=
  rewrite ?lookup_same; repeat rewrite lookup_other by reflexivity;
  match goal with H : lookup ?n ?l = None |- _ => rewrite H; try reflexivity end.
Ltac default de := intros n d l I H; cbn [In] in I; unfold de; open_chain;
  repeat (destruct I as [I|I]; [injection I as <- <-; use_default|]); try contradiction.
Ltac onlyf de := intros l l' A; unfold de; open_chain;
  repeat match goal with |- context [lookup (lit ?n) l] => rewrite (A n) by (cbn [In]; tauto) end; reflexivity.
Ltac place_one de := unfold de; cbn [map combine source_of List.length Nat.leb obind];
  unfold req, opt, dflt, field; cbn [nth_error];
  repeat (first [rewrite lookup_other by reflexivity | rewrite lookup_same]); cbn [lookup]; reflexivity.
Ltac place de := intros l [L1 L2]; cbn [List.length] in L1, L2;
  repeat (destruct l as [|? l]; [first [exfalso; cbn [List.length] in L1; lia | place_one de]|
    first [exfalso; cbn [List.length] in L2; lia | idtac]]).
Ltac few_one de := unfold de; cbn [source_of List.length Nat.leb obind]; unfold req, opt, dflt, field; cbn [nth_error obind];
  repeat (match goal with
    | |- obind ?t _ = None => let E := fresh in destruct t eqn:E; cbn [obind]; [|reflexivity]
    end); try reflexivity.
Ltac toofew de := intros l L; cbn [List.length] in L;
  repeat (destruct l as [|? l]; [few_one de|first [exfalso; cbn [List.length] in L; lia | idtac]]).
Ltac toomany de := intros l L; unfold de; cbn [source_of];
  match goal with |- context [Nat.leb ?a ?b] => assert (Q : Nat.leb a b = false) by (apply Nat.leb_gt; exact L); rewrite Q end;
  reflexivity.
Ltac notstruct de := intros j O A; unfold de; destruct j; try reflexivity; [exact (False_ind _ (A _ eq_refl))|exact (False_ind _ (O _ eq_refl))].
Ltac reads de := constructor; [missing de|default de|onlyf de|place de|toofew de|toomany de|notstruct de].

Section Reads.
Context {PD PL : Type} (S : serdelib PD PL).

Lemma reads_point : reads_struct (de_point S) ["x"; "y"; "a"; "b"; "name"; "ptype"; "smooth"; "data"] ["x"; "y"; "ptype"]
  [("a", JStr (lit "Colocated")); ("b", JStr (lit "Colocated")); ("name", JNull); ("smooth", JBool false); ("data", JNull)] 6.
Proof. reads @de_point. Qed.

Lemma reads_glifpoint : reads_struct (de_glifpoint S) ["x"; "y"; "smooth"; "name"; "ptype"] ["x"; "y"; "smooth"; "ptype"] [("name", JNull)] 5.
Proof. reads @de_glifpoint. Qed.
Lemma reads_qpoint : reads_struct (de_qpoint S) ["x"; "y"; "a"; "name"; "ptype"; "smooth"; "data"] ["x"; "y"; "ptype"]
  [("a", JStr (lit "Colocated")); ("name", JNull); ("smooth", JBool false); ("data", JNull)] 5.
Proof. reads @de_qpoint. Qed.
Lemma reads_hpoint : reads_struct (de_hpoint S) ["x"; "y"; "a"; "b"; "kind"; "smooth"; "data"]
  ["x"; "y"; "a"; "b"; "kind"; "smooth"] [("data", JNull)] 7.
Proof. reads @de_hpoint. Qed.
Lemma reads_color : reads_struct (de_color S) ["r"; "g"; "b"; "a"] ["r"; "g"; "b"; "a"] [] 4.
Proof. reads @de_color. Qed.
Lemma reads_anchor dj : pd_de S dj = Some (pd_default S) ->
  reads_struct (de_anchor S) ["x"; "y"; "class"; "data"; "atype"] ["x"; "y"]
    [("class", JNull); ("data", dj); ("atype", JStr (lit "Base"))] 2.
Proof. intros D. reads @de_anchor. rewrite D. reflexivity. Qed.
Lemma reads_glifanchor : reads_struct (de_glifanchor S) ["x"; "y"; "class"] ["x"; "y"] [("class", JNull)] 3.
Proof. reads @de_glifanchor. Qed.
Lemma reads_guideline_point : reads_struct de_guideline_point ["x"; "y"] ["x"; "y"] [] 2.
Proof. reads @de_guideline_point. Qed.
Lemma reads_guideline : reads_struct (de_guideline S) ["at"; "angle"; "name"; "color"; "identifier"; "data"]
  ["at"; "angle"; "data"] [("name", JNull); ("color", JNull); ("identifier", JNull)] 6.
Proof.
  reads @de_guideline; destruct p; try reflexivity;
  repeat (match goal with |- obind ?t _ = None => let E := fresh in destruct t eqn:E; cbn [obind]; [|reflexivity] end); reflexivity.
Qed.
Lemma reads_glifcomponent : reads_struct (de_glifcomponent S)
  ["base"; "filename"; "xScale"; "xyScale"; "yxScale"; "yScale"; "xOffset"; "yOffset"; "identifier"]
  ["base"; "xScale"; "xyScale"; "yxScale"; "yScale"; "xOffset"; "yOffset"] [("filename", JNull); ("identifier", JNull)] 9.
Proof. reads @de_glifcomponent. Qed.
Lemma reads_glifoutline : reads_struct (de_glifoutline S) ["contours"; "components"] ["contours"; "components"] [] 2.
Proof. reads @de_glifoutline. Qed.
Lemma reads_glifcomponents : reads_struct (de_glifcomponents S) ["root"; "vec"; "uniques"] ["root"; "vec"; "uniques"] [] 3.
Proof. reads @de_glifcomponents. Qed.
Lemma reads_rect : reads_struct de_rect ["minx"; "miny"; "maxx"; "maxy"; "name"] ["minx"; "miny"; "maxx"; "maxy"; "name"] [] 5.
Proof. reads @de_rect. Qed.
Lemma reads_glifimage : reads_struct (de_glifimage S)
  ["filename"; "xScale"; "xyScale"; "yxScale"; "yScale"; "xOffset"; "yOffset"; "identifier"; "color"]
  ["filename"; "xScale"; "xyScale"; "yxScale"; "yScale"; "xOffset"; "yOffset"] [("identifier", JNull); ("color", JNull)] 9.
Proof. reads @de_glifimage. Qed.
Lemma reads_glif : reads_struct (de_glif S)
  ["outline"; "anchors"; "components"; "guidelines"; "images"; "width"; "unicode"; "name"; "note"; "lib"]
  ["anchors"; "components"; "guidelines"; "images"; "unicode"; "name"; "lib"] [("outline", JNull); ("width", JNull); ("note", JNull)] 10.
Proof. reads @de_glif. Qed.
Lemma reads_component : reads_struct (de_component S) ["glif"; "matrix"] ["glif"; "matrix"] [] 2.
Proof. reads @de_component. Qed.
Lemma reads_vws_handle : reads_struct de_vws_handle ["left_offset"; "right_offset"; "tangent_offset"; "interpolation"]
  ["left_offset"; "right_offset"; "tangent_offset"; "interpolation"] [] 4.
Proof. reads @de_vws_handle. Qed.
Lemma reads_vws : reads_struct de_vws
  ["handles"; "join_type"; "cap_start_type"; "cap_end_type"; "remove_internal"; "remove_external"]
  ["handles"; "join_type"; "cap_start_type"; "cap_end_type"; "remove_internal"; "remove_external"] [] 6.
Proof. reads @de_vws. Qed.
Lemma reads_cull : reads_struct de_cull ["width"; "area_cutoff"] ["width"; "area_cutoff"] [] 2.
Proof. reads @de_cull. Qed.
Lemma reads_dash : reads_struct de_dash
  ["stroke_width"; "cull"; "dash_desc"; "include_last_path"; "paint_join"; "paint_cap"]
  ["stroke_width"; "dash_desc"; "include_last_path"; "paint_join"; "paint_cap"] [("cull", JNull)] 6.
Proof. reads @de_dash. Qed.
Lemma reads_pap {C} (de : json -> option C) : reads_struct (de_pap de)
  ["pattern"; "copies"; "subdivide"; "is_vertical"; "stretch"; "spacing"; "simplify"; "normal_offset"; "tangent_offset";
   "pattern_scale"; "center_pattern"; "prevent_overdraw"; "two_pass_culling"; "reverse_path"; "reverse_culling"; "warp_pattern"; "split_path"]
  ["pattern"; "copies"; "subdivide"; "is_vertical"; "stretch"; "spacing"; "simplify"; "normal_offset"; "tangent_offset";
   "pattern_scale"; "center_pattern"; "prevent_overdraw"; "two_pass_culling"; "reverse_path"; "reverse_culling"; "warp_pattern"; "split_path"] [] 17.
Proof. reads @de_pap. Qed.
Lemma reads_hyper_inner : reads_struct (de_hyper_inner S) ["points"; "open"] ["points"; "open"] [] 2.
Proof. reads @de_hyper_inner. Qed.

Lemma reads_ext {A} (de de' : json -> option A) names required defaults least :
  (forall j, de j = de' j) -> reads_struct de' names required defaults least -> reads_struct de names required defaults least.
Proof. intros E []. constructor; intros; rewrite !E; eauto. Qed.
Definition mcontour_one (j : json) : option (mcontour PD) :=
  let? s := source_of 2 j in
  let? i := req s 0 "inner" (de_inner S) in
  let? o := opt s 1 "operation" (de_operations (de_mcontour S)) in
  Some (MC i o).
Lemma reads_mcontour : reads_struct (de_mcontour S) ["inner"; "operation"] ["inner"] [("operation", JNull)] 2.
Proof. apply (reads_ext _ mcontour_one); [apply de_mcontour_step|]. reads mcontour_one. Qed.
Lemma reads_layer : reads_struct (de_layer S) ["name"; "visible"; "color"; "outline"; "operation"; "images"]
  ["name"; "visible"; "outline"; "images"] [("color", JNull); ("operation", JNull)] 6.
Proof. reads @de_layer. Qed.
Lemma reads_mglif {HT} (de : json -> option HT) : reads_struct (de_mglif S de)
  ["layers"; "history"; "anchors"; "components"; "flattened"; "component_rects"; "guidelines"; "width"; "unicode"; "name"; "note"; "filename"]
  ["layers"; "history"; "anchors"; "components"; "guidelines"; "unicode"; "name"]
  [("flattened", JNull); ("component_rects", JNull); ("width", JNull); ("note", JNull); ("filename", JNull)] 12.
Proof. reads @de_mglif. Qed.
Definition history_one (j : json) : option (history PD) :=
  let? s := source_of 7 j in
  let? d := req s 0 "description" de_str in let? li := opt s 1 "layer_idx" (de_nat u64_bound) in
  let? ci := opt s 2 "contour_idx" (de_nat u64_bound) in let? pi := opt s 3 "point_idx" (de_nat u64_bound) in
  let? gl := req s 4 "guidelines" (de_vec (de_guideline S)) in
  let? sel := opt s 5 "selected" (de_set pair_eqb de_selected) in
  let? g := req s 6 "glyph" (de_mglif S (de_history S)) in
  Some (HEntry d li ci pi gl sel g).
Lemma reads_history : reads_struct (de_history S)
  ["description"; "layer_idx"; "contour_idx"; "point_idx"; "guidelines"; "selected"; "glyph"]
  ["description"; "guidelines"; "glyph"] [("layer_idx", JNull); ("contour_idx", JNull); ("point_idx", JNull); ("selected", JNull)] 7.
Proof. apply (reads_ext _ history_one); [apply de_history_step|]. reads history_one. Qed.
End Reads.

(** * Enums *)

Lemma named_in {A} (table : list (string * A)) s a : NoDup (map (fun e => lit (fst e)) table) ->
  named table s = Some a <-> exists n, In (n, a) table /\ s = lit n.
Proof.
  induction table as [|[m b] t IH]; intros D; cbn [named In].
  - split; [discriminate|]. intros (n & [] & _).
  - apply NoDup_cons_iff in D as [D1 D2]. specialize (IH D2). destruct (str_eqb (lit m) s) eqn:E.
    + apply str_eqb_eq in E. subst s. split.
      * intros [= <-]. exists m. auto.
      * intros (n & [[= <- <-]|I] & En); [reflexivity|]. exfalso. apply D1. cbn [fst]. rewrite En.
        apply (in_map (fun e => lit (fst e)) t (n, a) I).
    + rewrite IH. split; intros (n & I & En); exists n.
      * auto.
      * split; [|assumption]. destruct I as [[= <- <-]|I]; [|assumption]. subst s.
        assert (Q : str_eqb (lit m) (lit m) = true) by now apply str_eqb_eq. congruence.
Qed.
Lemma reads_units {A} (table : list (string * A)) : NoDup (map (fun e => lit (fst e)) table) -> reads_names (de_units table) table.
Proof.
  intros D j a. unfold de_units. split.
  - destruct (variant j) as [[s v]|] eqn:V; [|discriminate]. cbn [obind].
    destruct (named table s) as [b|] eqn:N; [|discriminate]. cbn [obind].
    destruct (is_unit v) eqn:U; [|discriminate]. intros [= <-]. apply named_in in N as (n & I & ->); [|assumption].
    exists n. split; [assumption|]. destruct j as [| | | |s|l|[|[k w] [|]]]; try discriminate.
    + injection V as -> <-. now left.
    + injection V as -> <-. right. cbn in U. destruct w; try discriminate. reflexivity.
  - intros (n & I & H). assert (N : named table (lit n) = Some a) by (apply named_in; eauto).
    destruct H as [-> | ->]; cbn [variant obind]; rewrite N; reflexivity.
Qed.

Lemma de_handle_says (j : json) (h : handle) : de_handle j = Some h <->
  (h = Colocated /\ (j = JStr (lit "Colocated") \/ j = JObj [(lit "Colocated", JNull)])) \/
  (exists x y jx jy, h = At x y /\ j = JObj [(lit "At", JArr [jx; jy])] /\ de_f32 jx = Some x /\ de_f32 jy = Some y).
Proof.
  unfold de_handle. split.
  - destruct (variant j) as [[s v]|] eqn:V; [|discriminate]. cbn [obind].
    destruct (str_eqb s (lit "At")) eqn:E1.
    + apply str_eqb_eq in E1. subst s. destruct v as [[| | | | |[|jx [|jy [|]]]|]|]; try discriminate.
      destruct (de_f32 jx) as [x|] eqn:Dx; [|discriminate]. cbn [obind].
      destruct (de_f32 jy) as [y|] eqn:Dy; [|discriminate]. cbn [obind]. intros [= <-]. right.
      exists x, y, jx, jy. split; [reflexivity|]. split; [|now split].
      destruct j as [| | | |s|l|[|[k w] [|]]]; try discriminate. injection V as -> ->. reflexivity.
    + destruct (str_eqb s (lit "Colocated")) eqn:E2; [|discriminate]. apply str_eqb_eq in E2. subst s.
      destruct (is_unit v) eqn:U; [|discriminate]. intros [= <-]. left. split; [reflexivity|].
      destruct j as [| | | |s|l|[|[k w] [|]]]; try discriminate.
      * injection V as -> <-. now left.
      * injection V as -> <-. right. cbn in U. destruct w; try discriminate. reflexivity.
  - intros [(-> & [-> | ->])|(x & y & jx & jy & -> & -> & Dx & Dy)]; try reflexivity.
    cbn [variant obind]. change (str_eqb (lit "At") (lit "At")) with true. cbn iota. rewrite Dx, Dy. reflexivity.
Qed.
