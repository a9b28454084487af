(** What is read from a tree XML text can carry is a glyph whose texts it can carry. *)
Require Import Coq.Strings.String Coq.Lists.List Coq.Arith.Arith Coq.NArith.NArith Coq.ZArith.ZArith Coq.Bool.Bool Coq.Floats.SpecFloat Coq.micromega.Lia.
Require Import Verif.Model.Base Verif.Model.Text Verif.Model.Float Verif.Model.Num Verif.Model.RustNum Verif.Model.Point Verif.Model.Contour
  Verif.Model.Create Verif.Model.Conv Verif.Model.Names Verif.Model.Pedantry Verif.Model.Color Verif.Model.Xml Verif.Model.XmlText
  Verif.Model.Parts Verif.Model.Read Verif.Model.Write
  Verif.Spec.TextSpec Verif.Spec.OutlineSpec Verif.Spec.GlyphSpec Verif.Spec.DocumentSpec Verif.Spec.OpenSpec Verif.Spec.XmlTextSpec Verif.Spec.ReopenSpec
  Verif.Facts.XmlFacts Verif.Facts.GlyphFacts Verif.Facts.DocumentFacts Verif.Facts.OpenFacts Verif.Facts.FileFacts.
Import ListNotations.
Local Open Scope string_scope.
Local Open Scope list_scope.

Lemma carried_elem l e : carried_nodes carried l -> In (NElem e) l -> carried e.
Proof. induction l as [|x l IH]; [intros _ []|]. destruct x; cbn; intros H [E|Hi]; try discriminate; try (injection E as <-; tauto); apply IH; tauto. Qed.
Lemma carried_named n e x : carried e -> In x (named n e) -> carried x.
Proof.
  intros H Hx. unfold named, children_named in Hx. apply in_flat_map in Hx as (y & Hy & Hx). destruct y as [y|s|s|]; try destruct Hx.
  destruct (list_eq_dec N.eq_dec (ename y) (lit n)); [|destruct Hx]. destruct Hx as [<-|[]]. apply (carried_elem (echildren e)); [|exact Hy]. destruct e. apply H.
Qed.
Lemma carried_get e k s : carried e -> get e k = Some s -> attribute_text s.
Proof.
  intros H. assert (Forall (fun kv => attribute_text (snd kv)) (eattrs e)) as A.
  { destruct e as [n a ch]. destruct H as (_ & H & _). eapply Forall_impl; [|exact H]. cbn. tauto. }
  unfold get. generalize (lit k). intros n. induction A as [|[k' v] a Hv _ IH]; cbn; [discriminate|]. destruct (str_eqb _ _); [intros [= <-]; exact Hv|exact IH].
Qed.
Lemma carried_text e s : carried e -> text_in e = Some s -> plain_text s.
Proof.
  intros H. unfold text_in. destruct (existsb _ _); [|discriminate]. intros [= <-]. destruct e as [n a ch]. cbn [echildren]. destruct H as (_ & _ & _ & _ & H).
  induction ch as [|x ch IH]; [constructor|]. destruct x; cbn [flat_map says_text app]; cbn in H; try (apply IH; tauto); apply Forall_app; split; [tauto|apply IH; tauto|tauto|apply IH; tauto].
Qed.

Section Carried.
Context {PD PL : Type} (L : numlib) (pd0 : PD) (P : plistlib PL).
Lemma tree_carried ped root (g : glif PD PL) : carried root -> read_element L pd0 P ped root = Ok g -> carried_lib P (g_lib g) -> carried_glyph P g.
Proof.
  intros Hc H Hl. pose proof (proj1 (contours_read L pd0 P ped root g H)) as Hr. apply read_element_says in H.
  destruct H as (_ & _ & Hn & _ & _ & Ha & Hi & Hg & Ht & _ & _ & _ & _ & gcs & o & Ho & _ & _).
  split; [apply (carried_get root "name"); [exact Hc|exact Hn]|].
  split.
  { apply Forall_forall. intros a Hin s Es. destruct (Forall2_right _ _ _ a Ha Hin) as (e & He & (_ & Hcl & _)). apply (carried_get e "name"); [now apply (carried_named "anchor" root)|now apply Hcl]. }
  split.
  { apply Forall_forall. intros a Hin. destruct (Forall2_right _ _ _ a Hg Hin) as (e & He & (_ & _ & _ & E1 & _ & E2 & _)).
    split; intros s Es; [apply (carried_get e "name")|apply (carried_get e "identifier")]; try (now apply (carried_named "guideline" root)); congruence. }
  split.
  { apply Forall_forall. intros a Hin. assert (exists e, carried e /\ component_says L e a) as (e & He & (E1 & _ & E2 & _)).
    { unfold outline_says in Ho. destruct (named "outline" root) as [|oe r] eqn:Eo; [destruct Ho as [_ Ho]; rewrite Ho in Hin; destruct Hin|].
      destruct Ho as (all & _ & _ & Ho). destruct (Forall2_right _ _ _ a Ho Hin) as (e & He & X0). exists e. split; [|exact X0]. apply (carried_named "component" oe); [|exact He].
      apply (carried_named "outline" root); [exact Hc|rewrite Eo; now left]. }
    split; [apply (carried_get e "base")|intros s Es; apply (carried_get e "identifier")]; try assumption; congruence. }
  split.
  { apply Forall_forall. intros a Hin. destruct (Forall2_right _ _ _ a Hi Hin) as (e & He & ((f & E1 & E1') & _ & E2 & _)).
    split; [apply (carried_get e "fileName")|intros s Es; apply (carried_get e "identifier")]; try (now apply (carried_named "image" root)); try congruence. rewrite E1'; exact E1. }
  split.
  { apply Forall_forall. intros c Hin. apply Forall_forall. intros p Hpc s Es. destruct (Hr c Hin) as (ce & Hce & (Hne & gc & Hgc & Hcc)).
    assert (carried ce) as Hch.
    { unfold contours_in in Hce. destruct (named "outline" root) as [|oe r] eqn:Eo; [destruct Hce|]. apply (carried_named "contour" oe); [|exact Hce]. apply (carried_named "outline" root); [exact Hc|rewrite Eo; now left]. }
    assert (exists q, In q gc /\ pname p = gname q) as (q & Hq & Eq).
    { destruct gc as [|q gc]; [discriminate|]. unfold contour_of_glif in Hcc.
      destruct (gptype q) eqn:Eg; try (injection Hcc as <-; congruence); try (now apply (cubic_contour_names (q :: gc) c)).
      all: injection Hcc as <-; destruct (quadratic_names L _ p Hpc) as [X0|X0]; [congruence|exact X0]. }
    destruct (Forall2_right _ _ _ q Hgc Hq) as (e & He & (_ & _ & _ & En & _)). apply (carried_get e "name"); [now apply (carried_named "point" ce)|congruence]. }
  split; [|exact Hl].
  intros s Es. rewrite Ht in Es. destruct (named "note" root) as [|n r] eqn:En; [discriminate|].
  apply (carried_text n); [apply (carried_named "note" root); [exact Hc|rewrite En; now left]|exact Es].
Qed.
Lemma lib_carried_again (l l' : lib PL) : lib_restored l l' -> carried_lib P l -> carried_lib P l'.
Proof.
  destruct l as [|d|x], l' as [|d'|x']; cbn [lib_restored]; try tauto; [now intros <-|].
  intros E H e [X|(d & X & _)]; [|discriminate]. injection X as <-. rewrite <- E. apply (H x). now left.
Qed.
End Carried.
