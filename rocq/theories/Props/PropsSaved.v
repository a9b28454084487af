(** The form of what is saved through serde. *)
Require Import Coq.Strings.String Coq.Lists.List Coq.NArith.NArith Coq.ZArith.ZArith Coq.QArith.QArith.
Require Import Verif.Model.Base Verif.Model.Text Verif.Model.Float Verif.Model.Num Verif.Model.RustNum Verif.Model.Point
  Verif.Model.Contour Verif.Model.Names Verif.Model.Color Verif.Model.Xml Verif.Model.Parts Verif.Model.Component
  Verif.Model.Mpoint Verif.Model.Mfek Verif.Model.Serde Verif.Spec.MfekSpec Verif.Spec.SerdeSpec Verif.Spec.SavedSpec
  Verif.Facts.SavedFacts Verif.Facts.TextFacts Verif.Props.PropsSerde.
Import ListNotations.
Local Open Scope string_scope.

(** C100: a glyph is saved as an object with its parts under their names: each point with its own x, y,
    handles, each list in order, each number with its value, nothing else. *)
Theorem C100_glyph : forall (PD PL : Type) (S : serdelib PD PL),
  saved_as (en_glif S) (form_glif S) /\ saved_as (en_component S) (form_component S).
Proof. intros PD PL S. split; apply fits_saved; [apply glif_fits|apply component_fits]. Qed.
Print Assumptions C100_glyph.

(** C100: an MFEK glyph, with its layers, contours, operations, and the glyphs of its history, however
    deep they are nested. *)
Theorem C100_mfek_glyph : forall (PD PL : Type) (S : serdelib PD PL),
  saved_as (en_mfekglif S) (form_mfekglif S) /\ saved_as (en_history S) (form_history S) /\
  saved_as (en_layer S) (form_layer S) /\ saved_as (en_mcontour S) (form_mcontour S).
Proof.
  intros PD PL S. split; [|split; [|split]]; apply fits_saved;
    [apply mfekglif_fits|apply history_fits|apply layer_fits|apply mcontour_fits].
Qed.
Print Assumptions C100_mfek_glyph.

(** C100: the parts, each by itself. *)
Theorem C100_parts : forall (PD PL : Type) (S : serdelib PD PL),
  saved_as (en_point S) (form_point S) /\ saved_as (en_qpoint S) (form_qpoint S) /\
  saved_as (en_hpoint S) (form_hpoint S) /\ saved_as (en_glifpoint S) (form_glifpoint S) /\
  saved_as (en_anchor S) (form_anchor S) /\ saved_as (en_glifanchor S) (form_glifanchor S) /\
  saved_as (en_guideline S) (form_guideline S) /\ saved_as (en_color S) (form_color S) /\
  saved_as (en_glifcomponent S) (form_glifcomponent S) /\ saved_as (en_glifcomponents S) (form_glifcomponents S) /\
  saved_as (en_glifoutline S) (form_glifoutline S) /\ saved_as (en_glifimage S) (form_glifimage S) /\
  saved_as (en_lib S) (form_lib S) /\ saved_as (en_inner S) (form_inner S).
Proof.
  intros PD PL S. repeat match goal with |- _ /\ _ => split end; apply fits_saved;
    [apply point_fits|apply qpoint_fits|apply hpoint_fits|apply glifpoint_fits|apply anchor_fits|apply glifanchor_fits|
     apply guideline_fits|apply color_fits|apply glifcomponent_fits|apply glifcomponents_fits|apply glifoutline_fits|
     apply glifimage_fits|apply lib_fits|apply inner_fits].
Qed.
Print Assumptions C100_parts.

(** C100: the parts that carry nothing of other crates. *)
Theorem C100_plain_parts :
  saved_as en_handle form_handle /\ saved_as en_rect form_rect /\ saved_as en_affine form_affine /\
  saved_as en_vws form_vws /\ saved_as en_vws_handle form_vws_handle /\ saved_as en_dash form_dash /\
  saved_as en_cull form_cull /\ saved_as en_subdivide form_subdivide /\ saved_as en_culling form_culling /\
  saved_as en_selected form_selected /\ saved_as en_mfek_data form_mfek_data.
Proof.
  repeat match goal with |- _ /\ _ => split end; apply fits_saved;
    [apply handle_fits|apply rect_fits|apply affine_fits|apply vws_fits|apply vws_handle_fits|apply dash_fits|
     apply cull_fits|apply subdivide_fits|apply culling_fits|apply selected_fits|apply mfek_data_fits].
Qed.
Print Assumptions C100_plain_parts.

(** C100: the enumerations without data are saved as the names of their variants, always. *)
Theorem C100_enums :
  (forall t, exists j, en_ptype t = Some j /\ form_ptype t j) /\
  (forall t, exists j, en_which t = Some j /\ form_which t j) /\
  (forall t, exists j, en_anchor_type t = Some j /\ form_anchor_type t j) /\
  (forall t, exists j, en_join t = Some j /\ form_join t j) /\
  (forall t, exists j, en_cap t = Some j /\ form_cap t j) /\
  (forall t, exists j, en_interpolation t = Some j /\ form_interpolation t j) /\
  (forall t, exists j, en_copies t = Some j /\ form_copies t j) /\
  (forall t, exists j, en_stretch t = Some j /\ form_stretch t j) /\
  (forall t, exists j, en_layer_operation t = Some j /\ form_layer_operation t j) /\
  (forall t, exists j, en_hyper_kind t = Some j /\ form_hyper_kind t j).
Proof.
  repeat match goal with |- _ /\ _ => split end; intros t; (eexists; split; [reflexivity|]);
    [apply ptype_fits|apply which_fits|apply anchor_type_fits|apply join_fits|apply cap_fits|apply interpolation_fits|
     apply copies_fits|apply stretch_fits|apply layer_operation_fits|apply hyper_kind_fits]; reflexivity.
Qed.
Print Assumptions C100_enums.

(** C100: numbers and texts are always saved; the point data `()` is null. *)
Theorem C100_values :
  (forall x, exists j, en_f32 x = Some j /\ a_float32 x j) /\ (forall x, exists j, en_f64 x = Some j /\ a_float64 x j) /\
  (forall b, en_bool b = Some (JBool b)) /\ (forall s, en_str s = Some (JStr s)) /\
  (forall n, en_nat n = Some (JInt (Z.of_N n))) /\ (forall c, en_char c = Some (JStr [c])) /\
  (forall u, en_unit u = Some JNull).
Proof.
  repeat match goal with |- _ /\ _ => split end; try reflexivity; intros x; (eexists; split; [reflexivity|]);
    [apply f32_fits|apply f64_fits]; reflexivity.
Qed.
Print Assumptions C100_values.

(** A glyph with an anchor, a guideline, two contours: what is saved, and that it has the form. *)
Example C100_case : exists j, en_glif ex_lib ex_saved_glyph = Some j /\ form_glif ex_lib ex_saved_glyph j.
Proof.
  assert (E : exists j, en_glif ex_lib ex_saved_glyph = Some j) by (eexists; vm_compute; reflexivity).
  destruct E as [j E]. exists j. split; [exact E|]. now apply C100_glyph.
Qed.
Example C100_case_point :
  en_point ex_lib (mkPoint (fl "0.5") (fl "2") (At (fl "1") (fl "3")) Colocated None Curve true None) =
  Some (JObj [(lit "x", JFloat (f64_of_f32 (fl "0.5"))); (lit "y", JFloat (f64_of_f32 (fl "2")));
    (lit "a", JObj [(lit "At", JArr [JFloat (f64_of_f32 (fl "1")); JFloat (f64_of_f32 (fl "3"))])]);
    (lit "b", JStr (lit "Colocated")); (lit "name", JNull); (lit "ptype", JStr (lit "Curve")); (lit "smooth", JBool true);
    (lit "data", JNull)]) /\
  ~ form_point ex_lib (mkPoint (fl "0.5") (fl "2") Colocated Colocated None Line false None)
    (JObj [(lit "x", JFloat (f64_of_f32 (fl "2"))); (lit "y", JFloat (f64_of_f32 (fl "0.5")));
      (lit "a", JStr (lit "Colocated")); (lit "b", JStr (lit "Colocated")); (lit "name", JNull);
      (lit "ptype", JStr (lit "Line")); (lit "smooth", JBool false); (lit "data", JNull)]).
Proof.
  split; [vm_compute; reflexivity|]. intros (kvs & E & H). injection E as <-. destruct H as (_ & (_ & K) & _).
  destruct K as (d & D & V); [reflexivity|]. destruct V as [V _]; [reflexivity|]. injection D as <-.
  vm_compute in V. discriminate.
Qed.
