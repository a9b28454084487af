(** Property C115: a component loaded by itself. *)
Require Import Coq.Strings.String Coq.Lists.List Coq.NArith.NArith Coq.ZArith.ZArith Coq.Bool.Bool.
Require Import Verif.Model.Base Verif.Model.Text Verif.Model.Float Verif.Model.Num Verif.Model.RustNum Verif.Model.Names Verif.Model.Pedantry
  Verif.Model.Xml Verif.Model.Parts Verif.Model.Read Verif.Model.Component Verif.Model.Message Verif.Spec.LoadSpec Verif.Props.PropsComponent.
Import ListNotations.

Section Load.
Context (L : numlib) {PD PL : Type} (pd0 : PD) (P : plistlib PL).
Context {T : Type} (files : path -> option T) (parse : T -> option element).
Notation load := (to_component L pd0 P files parse).
Notation open_file := (read_from_filename L pd0 P T files parse pedantry_default).

(** C115: a component is loaded exactly if its file can be opened, and then as the glyph in it. *)
Theorem C115_loaded_exact : forall r k,
  load r = Ok k <-> exists fn h, c_filename r = Some fn /\ open_file fn = Ok h /\ loaded_as r fn h k.
Proof.
  intros r k. unfold to_component, read_from_filename. split.
  - destruct (c_filename r) as [fn|] eqn:Er; cbn [ok_or bind]; [|discriminate]. destruct (files fn) as [t|] eqn:E; cbn [ok_or bind]; [|discriminate].
    destruct (parse t) as [root|] eqn:E1; cbn [ok_or bind]; [|discriminate]. destruct (read_element L pd0 P pedantry_default root) as [n|e|] eqn:E2; cbn [bind]; try discriminate.
    intros [= <-]. exists fn. eexists. split; [reflexivity|]. rewrite E. cbn [ok_or bind]. rewrite E1. cbn [ok_or bind]. rewrite E2. cbn [bind].
    split; [reflexivity|]. unfold loaded_as. cbn.
    repeat split.
  - intros (fn & h & -> & H & Hk). cbn [ok_or bind]. destruct (files fn) as [t|]; cbn [ok_or bind] in *; [|discriminate].
    destruct (parse t) as [root|]; cbn [ok_or bind] in *; [|discriminate]. destruct (read_element L pd0 P pedantry_default root) as [n|e|]; cbn [bind] in *; try discriminate.
    injection H as <-. f_equal. destruct k as [[] m]. unfold loaded_as in Hk.
    cbn in Hk.
    destruct Hk as (-> & -> & -> & -> & -> & -> & -> & -> & -> & -> & -> & ->). reflexivity.
Qed.

(** C115: exactly when and how loading fails. *)
Theorem C115_fails_exactly : forall r,
  (forall e, load r = Err e <->
     (c_filename r = None /\ e = EFilenameNotSet (c_base r)) \/
     exists fn, c_filename r = Some fn /\
       ((files fn = None /\ e = EFilenameNotSet (lit "Glif filename leads to unreadable file")) \/
        (files fn <> None /\ open_file fn = Err e))) /\
  (load r = Panic <-> exists fn, c_filename r = Some fn /\ open_file fn = Panic).
Proof.
  intros r. unfold to_component, read_from_filename. destruct (c_filename r) as [fn|]; cbn [ok_or bind].
  2:{ split; [|split; [discriminate|intros (? & [=] & _)]]. intros e. split; [intros [= <-]; now left|]. intros [[_ ->]|(? & [=] & _)]. reflexivity. }
  destruct (files fn) as [t|] eqn:E; cbn [ok_or bind].
  2:{ split.
      - intros e. split; [intros [= <-]; right; exists fn; split; [reflexivity|left; now rewrite E]|].
        intros [[[=] _]|(fn' & [= <-] & [[_ ->]|[X _]])]; [reflexivity|congruence].
      - split; [discriminate|]. intros (fn' & [= <-] & X). rewrite E in X. discriminate X. }
  split.
  - intros e. split.
    + intros H. right. exists fn. split; [reflexivity|]. right. split; [congruence|]. rewrite E. cbn [ok_or bind].
      destruct (parse t) as [root|]; cbn [ok_or bind] in *; [|congruence]. destruct (read_element L pd0 P pedantry_default root) as [n|e'|]; cbn [bind] in *; [discriminate|congruence|discriminate].
    + intros [[[=] _]|(fn' & [= <-] & [[X _]|[_ X]])]; [congruence|]. rewrite E in X. cbn [ok_or bind] in X.
      destruct (parse t) as [root|]; cbn [ok_or bind] in *; [|congruence]. destruct (read_element L pd0 P pedantry_default root) as [n|e'|]; cbn [bind] in *; [discriminate|congruence|discriminate].
  - split.
    + intros H. exists fn. split; [reflexivity|]. rewrite E. cbn [ok_or bind].
      destruct (parse t) as [root|]; cbn [ok_or bind] in *; [|discriminate]. destruct (read_element L pd0 P pedantry_default root) as [n|e'|]; cbn [bind] in *; [discriminate|discriminate|reflexivity].
    + intros (fn' & [= <-] & X). rewrite E in X. cbn [ok_or bind] in X.
      destruct (parse t) as [root|]; cbn [ok_or bind] in *; [|discriminate]. destruct (read_element L pd0 P pedantry_default root) as [n|e'|]; cbn [bind] in *; [discriminate|discriminate|reflexivity].
Qed.
End Load.
Print Assumptions C115_loaded_exact.
Print Assumptions C115_fails_exactly.

(** C115 as stated is false in its last part: whichever file cannot be read, the message is the same. *)
Definition ref (base : string) : glifcomponent :=
  mkComponent (lit base) (Some [lit "glyphs"; lit base ++ lit ".glif"]) (mkMatrix (IInt 1%Z) (IInt 0%Z) (IInt 0%Z) (IInt 1%Z) (IInt 0%Z) (IInt 0%Z)) None.
Theorem C115_message_refuted : exists r r' e, c_base r <> c_base r' /\ c_filename r <> c_filename r' /\ c_filename r <> None /\
  to_component rust_num tt nopl font Some r = Err e /\ to_component rust_num tt nopl font Some r' = Err e.
Proof. exists (ref "lost"), (ref "gone"). eexists. do 3 (split; [discriminate|]). split; vm_compute; reflexivity. Qed.
Print Assumptions C115_message_refuted.

(** A component that is loaded, with components of its own. *)
Example C115_case : exists k, to_component rust_num tt nopl font Some (ref "twice") = Ok k /\
  map c_base (cs_vec (g_components (cp_glif k))) = [lit "once"] /\
  map c_filename (cs_vec (g_components (cp_glif k))) = [Some [lit "glyphs"; lit "once.glif"]] /\
  option_map (@List.length _) (g_outline (cp_glif k)) = Some 1.
Proof. eexists. split; [vm_compute; reflexivity|]. repeat split. Qed.
