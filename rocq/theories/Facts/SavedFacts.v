(** What is saved has the form that Spec/SavedSpec.v describes. *)
Require Import Coq.Strings.String Coq.Lists.List Coq.NArith.NArith Coq.ZArith.ZArith Coq.QArith.QArith.
Require Import Verif.Model.Base Verif.Model.Text Verif.Model.Float Verif.Model.Num Verif.Model.Point
  Verif.Model.Contour Verif.Model.Names Verif.Model.Color Verif.Model.Xml Verif.Model.Parts Verif.Model.Component
  Verif.Model.Mpoint Verif.Model.Mfek Verif.Model.Serde Verif.Spec.MfekSpec Verif.Spec.SerdeSpec Verif.Spec.SavedSpec
  Verif.Facts.FloatFacts Verif.Facts.AccuracyFacts Verif.Facts.SerdeFacts.
Import ListNotations.
Local Open Scope string_scope.

Definition fits (v : option json) (f : form) : Prop := forall j, v = Some j -> f j.
Definition all_fit (l : list (string * option json)) (fs : list (string * form)) : Prop :=
  Forall2 (fun a b => fst a = fst b /\ fits (snd a) (snd b)) l fs.

Lemma struct_fits l fs : all_fit l fs -> fits (jstruct l) (an_object fs).
Proof.
  intros H j E. unfold jstruct in E. destruct (fields l) as [r|] eqn:R; [|discriminate]. injection E as <-.
  exists r. split; [reflexivity|]. revert r R. induction H as [|[n v] [n' f] l fs [K F] H IH]; intros r R; cbn in R.
  - injection R as <-. exact I.
  - cbn in K, F. subst n'. destruct v as [j|]; [|discriminate]. cbn in R.
    destruct (fields l) as [r'|]; [|discriminate]. injection R as <-. cbn. auto.
Qed.
Lemma vec_fits_in {A} (en : A -> option json) (f : A -> form) l :
  (forall x, In x l -> fits (en x) (f x)) -> fits (en_vec en l) (an_array f l).
Proof.
  intros H j E. unfold en_vec in E. destruct (elements en l) as [r|] eqn:R; [|discriminate]. injection E as <-.
  exists r. split; [reflexivity|]. revert r R H. induction l as [|x l IH]; intros r R H; cbn in R.
  - injection R as <-. exact I.
  - destruct (en x) as [j|] eqn:X; [|discriminate]. cbn in R. destruct (elements en l) as [r'|]; [|discriminate].
    injection R as <-. split; [apply (H x); [now left|assumption]|]. apply IH; [reflexivity|]. intros y Y. apply H. now right.
Qed.
Lemma vec_fits {A} (en : A -> option json) (f : A -> form) l : saved_as en f -> fits (en_vec en l) (an_array f l).
Proof. intros H. apply vec_fits_in. intros x _ j. apply H. Qed.
Lemma opt_fits {A} (en : A -> option json) (f : A -> form) o : saved_as en f -> fits (en_opt en o) (optional f o).
Proof. intros H j E. destruct o as [x|]; cbn in *; [now apply H|]. congruence. Qed.
Lemma tuple_fits l fs : Forall2 fits l fs -> fits (jtuple l) (a_tuple fs).
Proof.
  intros H j E. unfold jtuple, en_vec in E. destruct (elements _ l) as [r|] eqn:R; [|discriminate]. injection E as <-.
  exists r. split; [reflexivity|]. revert r R. induction H as [|v f l fs F H IH]; intros r R; cbn in R.
  - injection R as <-. exact I.
  - destruct v as [j|]; [|discriminate]. cbn in R. destruct (elements _ l) as [r'|]; [|discriminate].
    injection R as <-. split; [now apply F|]. now apply IH.
Qed.
Lemma tagged_fits n v f : fits v f -> fits (jnewtype n v) (tagged n f).
Proof.
  intros H j E. unfold jnewtype in E. destruct v as [w|]; [|discriminate]. injection E as <-.
  eexists. split; [reflexivity|]. cbn. auto.
Qed.
Lemma unit_fits n : fits (junit n) (a_name n).
Proof. intros j [= <-]. reflexivity. Qed.
Lemma some_fits (f : form) j : f j -> fits (Some j) f.
Proof. intros H j' [= <-]. exact H. Qed.
Lemma saved_fits {A} (en : A -> option json) f x : saved_as en f -> fits (en x) (f x).
Proof. intros H j. apply H. Qed.

Lemma f32_fits x : fits (en_f32 x) (a_float32 x).
Proof.
  intros j [= <-]. split; intros F; rewrite F; [reflexivity|]. eexists. split; [reflexivity|]. intros V.
  split; [now apply f32_of_f64_of_f32|]. intros q Q. destruct (widen_value x q V Q) as (y & Y & K). exists y. auto.
Qed.
Lemma f64_fits x : fits (en_f64 x) (a_float64 x).
Proof. intros j [= <-]. split; intros F; rewrite F; reflexivity. Qed.
Lemma text_fits s : fits (en_str s) (a_text s).
Proof. now intros j [= <-]. Qed.
Lemma flag_fits b : fits (en_bool b) (a_flag b).
Proof. now intros j [= <-]. Qed.
Lemma nat_fits n : fits (en_nat n) (an_integer n).
Proof. now intros j [= <-]. Qed.
Lemma char_fits n : fits (en_char n) (a_letter n).
Proof. now intros j [= <-]. Qed.
Lemma path_fits p : fits (en_path p) (a_path_text p).
Proof. intros j [= <-]. exists (path_text p). split; [reflexivity|]. intros A. now apply path_text_of. Qed.
Lemma os_fits o : fits (en_osstr o) (an_os_text o).
Proof. destruct o as [s|s]; intros j E; [|discriminate]. injection E as <-. now exists s. Qed.
Lemma glif_string_fits s : fits (en_glif_string s) (a_text s).
Proof. now intros j [= <-]. Qed.

Create HintDb saved.
#[export] Hint Resolve unit_fits f32_fits f64_fits text_fits flag_fits nat_fits char_fits path_fits os_fits glif_string_fits : saved.
Ltac fit := lazymatch goal with
  | |- fits (jstruct _) _ => apply struct_fits; cbn [app matrix_entries]; fit
  | |- all_fit _ _ => unfold all_fit; repeat (apply Forall2_cons; [split; [reflexivity|cbn [snd]; fit]|]); apply Forall2_nil
  | |- fits (jtuple _) _ => apply tuple_fits; repeat (apply Forall2_cons; [fit|]); apply Forall2_nil
  | |- fits (jnewtype _ _) _ => apply tagged_fits; fit
  | |- fits (en_opt _ _) _ => apply opt_fits; fit
  | |- fits (en_vec _ _) _ => first [apply vec_fits_in; assumption | apply vec_fits; fit]
  | |- fits (Some _) _ => apply some_fits; reflexivity
  | |- saved_as _ _ => intros ? ?; lazymatch goal with |- ?v = Some ?j -> ?f ?j => revert j; change (fits v f); fit end
  | |- _ => solve [eauto with saved]
  end.

Lemma ptype_fits t : fits (en_ptype t) (form_ptype t).
Proof. destruct t; apply unit_fits. Qed.
Lemma which_fits t : fits (en_which t) (form_which t).
Proof. destruct t; apply unit_fits. Qed.
Lemma anchor_type_fits t : fits (en_anchor_type t) (form_anchor_type t).
Proof. destruct t; apply unit_fits. Qed.
Lemma join_fits t : fits (en_join t) (form_join t).
Proof. destruct t; apply unit_fits. Qed.
Lemma cap_fits t : fits (en_cap t) (form_cap t).
Proof. destruct t; apply unit_fits. Qed.
Lemma interpolation_fits t : fits (en_interpolation t) (form_interpolation t).
Proof. destruct t; apply unit_fits. Qed.
Lemma copies_fits t : fits (en_copies t) (form_copies t).
Proof. destruct t; apply unit_fits. Qed.
Lemma stretch_fits t : fits (en_stretch t) (form_stretch t).
Proof. destruct t; apply unit_fits. Qed.
Lemma layer_operation_fits t : fits (en_layer_operation t) (form_layer_operation t).
Proof. destruct t; apply unit_fits. Qed.
Lemma hyper_kind_fits t : fits (en_hyper_kind t) (form_hyper_kind t).
Proof. destruct t; apply unit_fits. Qed.
#[export] Hint Resolve ptype_fits which_fits anchor_type_fits join_fits cap_fits interpolation_fits copies_fits
  stretch_fits layer_operation_fits hyper_kind_fits : saved.
Lemma handle_fits h : fits (en_handle h) (form_handle h).
Proof. destruct h; cbn [en_handle form_handle]; fit. Qed.
#[export] Hint Resolve handle_fits : saved.

Lemma vws_handle_fits h : fits (en_vws_handle h) (form_vws_handle h).
Proof. unfold en_vws_handle, form_vws_handle. fit. Qed.
#[export] Hint Resolve vws_handle_fits : saved.
Lemma vws_fits v : fits (en_vws v) (form_vws v).
Proof. unfold en_vws, form_vws. fit. Qed.
Lemma cull_fits v : fits (en_cull v) (form_cull v).
Proof. unfold en_cull, form_cull. fit. Qed.
#[export] Hint Resolve vws_fits cull_fits : saved.
Lemma dash_fits v : fits (en_dash v) (form_dash v).
Proof. unfold en_dash, form_dash. fit. Qed.
Lemma subdivide_fits v : fits (en_subdivide v) (form_subdivide v).
Proof. destruct v; cbn [en_subdivide form_subdivide]; fit. Qed.
Lemma culling_fits v : fits (en_culling v) (form_culling v).
Proof. destruct v; cbn [en_culling form_culling]; fit. Qed.
#[export] Hint Resolve dash_fits subdivide_fits culling_fits : saved.

Section Saved.
Context {PD PL : Type} (S : serdelib PD PL).

Lemma data_fits d : fits (pd_en S d) (the_data S d).
Proof. intros j E. exact E. Qed.
Lemma plist_fits d : fits (pl_en S d) (a_plist S d).
Proof. intros j E. exact E. Qed.
Hint Resolve data_fits plist_fits : saved.

Lemma glifpoint_fits p : fits (en_glifpoint S p) (form_glifpoint S p).
Proof. unfold en_glifpoint, form_glifpoint. fit. Qed.
Lemma point_fits p : fits (en_point S p) (form_point S p).
Proof. unfold en_point, form_point. fit. Qed.
Lemma qpoint_fits p : fits (en_qpoint S p) (form_qpoint S p).
Proof. unfold en_qpoint, form_qpoint. fit. Qed.
Lemma hpoint_fits p : fits (en_hpoint S p) (form_hpoint S p).
Proof. unfold en_hpoint, form_hpoint. fit. Qed.
Lemma color_fits p : fits (en_color S p) (form_color S p).
Proof. unfold en_color, form_color. fit. Qed.
Hint Resolve glifpoint_fits point_fits qpoint_fits hpoint_fits color_fits : saved.
Lemma anchor_fits p : fits (en_anchor S p) (form_anchor S p).
Proof. unfold en_anchor, form_anchor. fit. Qed.
Lemma glifanchor_fits p : fits (en_glifanchor S p) (form_glifanchor S p).
Proof. unfold en_glifanchor, form_glifanchor. fit. Qed.
Lemma guideline_fits p : fits (en_guideline S p) (form_guideline S p).
Proof. unfold en_guideline, form_guideline. fit. Qed.
Lemma glifcomponent_fits p : fits (en_glifcomponent S p) (form_glifcomponent S p).
Proof. unfold en_glifcomponent, form_glifcomponent. fit. Qed.
Hint Resolve anchor_fits glifanchor_fits guideline_fits glifcomponent_fits : saved.
Lemma glifoutline_fits p : fits (en_glifoutline S p) (form_glifoutline S p).
Proof. unfold en_glifoutline, form_glifoutline. fit. Qed.
Lemma glifcomponents_fits p : fits (en_glifcomponents S p) (form_glifcomponents S p).
Proof. unfold en_glifcomponents, form_glifcomponents. fit. Qed.
Lemma rect_fits p : fits (en_rect p) (form_rect p).
Proof. unfold en_rect, form_rect. fit. Qed.
Lemma glifimage_fits p : fits (en_glifimage S p) (form_glifimage S p).
Proof. unfold en_glifimage, form_glifimage. fit. Qed.
Lemma affine_fits p : fits (en_affine p) (form_affine p).
Proof. unfold en_affine, form_affine. fit. Qed.
Lemma lib_fits p : fits (en_lib S p) (form_lib S p).
Proof. destruct p; cbn [en_lib form_lib]; try fit. intros j E. discriminate. Qed.
Hint Resolve glifoutline_fits glifcomponents_fits rect_fits glifimage_fits affine_fits lib_fits : saved.
Lemma glif_fits g : fits (en_glif S g) (form_glif S g).
Proof. unfold en_glif, form_glif, form_outline. fit. Qed.
Hint Resolve glif_fits : saved.
Lemma component_fits g : fits (en_component S g) (form_component S g).
Proof. unfold en_component, form_component. fit. Qed.
Lemma inner_fits i : fits (en_inner S i) (form_inner S i).
Proof. destruct i; cbn [en_inner form_inner]; fit. Qed.
Hint Resolve component_fits inner_fits : saved.

Lemma pap_fits {C} (en : C -> option json) f (p : pap C) :
  (forall c, In c (pp_pattern p) -> fits (en c) (f c)) -> fits (en_pap en p) (form_pap f p).
Proof. intros H. unfold en_pap, form_pap. fit. Qed.
Lemma operations_fits {C} (en : C -> option json) f (o : operations C) :
  (forall p c, o = OpPap p -> In c (pp_pattern p) -> fits (en c) (f c)) ->
  fits (en_operations en o) (form_operations f o).
Proof.
  intros H. destruct o as [v|p|d]; cbn [en_operations form_operations].
  - fit.
  - apply tagged_fits, struct_fits. apply Forall2_cons; [|apply Forall2_nil]. split; [reflexivity|].
    apply pap_fits. intros c. now apply H.
  - fit.
Qed.
Lemma mcontour_fits c : fits (en_mcontour S c) (form_mcontour S c).
Proof.
  revert c. apply mcontour_nested. intros i o H. cbn [en_mcontour form_mcontour].
  apply struct_fits. apply Forall2_cons; [|apply Forall2_cons; [|apply Forall2_nil]]; (split; [reflexivity|]); cbn [snd].
  - fit.
  - destruct o as [o|]; [|intros j [= <-]; reflexivity]. cbn [en_opt optional].
    apply operations_fits. intros p c E. apply H. congruence.
Qed.
Hint Resolve mcontour_fits : saved.
Lemma layer_fits l : fits (en_layer S l) (form_layer S l).
Proof. unfold en_layer, form_layer. fit. Qed.
Hint Resolve layer_fits : saved.
Lemma mglif_fits {H} (en : H -> option json) f (m : mglif PD H) :
  (forall h, In h (mg_history m) -> fits (en h) (f h)) -> fits (en_mglif S en m) (form_mglif S f m).
Proof. intros K. unfold en_mglif, form_mglif, form_outline. fit. Qed.
Lemma selected_fits s : fits (en_selected s) (form_selected s).
Proof. unfold en_selected, form_selected. fit. Qed.
Hint Resolve selected_fits : saved.
Lemma history_fits h : fits (en_history S h) (form_history S h).
Proof.
  revert h. apply history_nested. intros d li ci pi gl sel m H. cbn [en_history form_history].
  pose proof (mglif_fits _ _ m H) as M. fit.
Qed.
Lemma mfekglif_fits m : fits (en_mfekglif S m) (form_mfekglif S m).
Proof. apply mglif_fits. intros h _. apply history_fits. Qed.
End Saved.

Lemma mfek_data_fits d : fits (en_mfek_data d) (form_mfek_data d).
Proof. unfold en_mfek_data, form_mfek_data. fit. Qed.
Lemma fits_saved {A} (en : A -> option json) f : (forall x, fits (en x) (f x)) -> saved_as en f.
Proof. intros H x j. apply H. Qed.
