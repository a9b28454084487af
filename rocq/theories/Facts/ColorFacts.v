(** Colors as text. *)
Require Import Coq.Lists.List Coq.NArith.NArith Coq.ZArith.ZArith Coq.Bool.Bool Coq.Strings.String Coq.Floats.SpecFloat Coq.micromega.Lia.
Require Import Verif.Model.Base Verif.Model.Text Verif.Model.Float Verif.Model.Num Verif.Model.RustNum Verif.Model.Color Verif.Spec.TextSpec Verif.Spec.NumSpec
  Verif.Facts.TextFacts Verif.Facts.RustNumFacts.
Import ListNotations.
Local Open Scope N_scope.

Lemma color_split L c :
  ~ In comma (iof_show L (cr c)) -> ~ In comma (iof_show L (cg c)) ->
  ~ In comma (iof_show L (cb c)) -> ~ In comma (iof_show L (ca c)) ->
  split_on 44 (color_show L c) = [iof_show L (cr c); iof_show L (cg c); iof_show L (cb c); iof_show L (ca c)].
Proof.
  intros Hr Hg Hb Ha. unfold color_show. cbn [app].
  rewrite !split_on_app by assumption. now rewrite split_on_none.
Qed.

Lemma color_round_trip L c :
  (forall i, In i [cr c; cg c; cb c; ca c] -> iof_read L (iof_show L i) = Some i /\ ~ In comma (iof_show L i)) ->
  color_parse L (color_show L c) = Ok c.
Proof.
  intros H. destruct (H (cr c)) as [H1 N1]; [cbn; tauto|]. destruct (H (cg c)) as [H2 N2]; [cbn; tauto|].
  destruct (H (cb c)) as [H3 N3]; [cbn; tauto|]. destruct (H (ca c)) as [H4 N4]; [cbn; tauto|].
  unfold color_parse. rewrite color_split by assumption. unfold color_component.
  rewrite H1, H2, H3, H4. cbn. now destruct c.
Qed.

Lemma color_round_trip_by L (R : iof -> iof -> Prop) c :
  (forall i, In i [cr c; cg c; cb c; ca c] ->
     (exists j, iof_read L (iof_show L i) = Some j /\ R j i) /\ ~ In comma (iof_show L i)) ->
  exists c', color_parse L (color_show L c) = Ok c' /\ Forall2 R [cr c'; cg c'; cb c'; ca c'] [cr c; cg c; cb c; ca c].
Proof.
  intros H. destruct (H (cr c)) as [(r & H1 & R1) N1]; [cbn; tauto|]. destruct (H (cg c)) as [(g & H2 & R2) N2]; [cbn; tauto|].
  destruct (H (cb c)) as [(b & H3 & R3) N3]; [cbn; tauto|]. destruct (H (ca c)) as [(a & H4 & R4) N4]; [cbn; tauto|].
  unfold color_parse. rewrite color_split by assumption. unfold color_component. rewrite H1, H2, H3, H4.
  cbn [ok_or bind]. eexists. split; [reflexivity|]. repeat (apply Forall2_cons; [assumption|]). apply Forall2_nil.
Qed.

Lemma color_round_trip_value L c :
  (forall i, In i [cr c; cg c; cb c; ca c] ->
     option_map f32_of_iof (iof_read L (iof_show L i)) = Some (f32_of_iof i) /\ ~ In comma (iof_show L i)) ->
  exists c', color_parse L (color_show L c) = Ok c' /\ color_to_f32s c' = color_to_f32s c.
Proof.
  intros H. destruct (H (cr c)) as [H1 N1]; [cbn; tauto|]. destruct (H (cg c)) as [H2 N2]; [cbn; tauto|].
  destruct (H (cb c)) as [H3 N3]; [cbn; tauto|]. destruct (H (ca c)) as [H4 N4]; [cbn; tauto|].
  unfold color_parse. rewrite color_split by assumption. unfold color_component.
  destruct (iof_read L (iof_show L (cr c))) as [r|]; [|discriminate].
  destruct (iof_read L (iof_show L (cg c))) as [g|]; [|discriminate].
  destruct (iof_read L (iof_show L (cb c))) as [b|]; [|discriminate].
  destruct (iof_read L (iof_show L (ca c))) as [a|]; [|discriminate].
  cbn in *. eexists. split; [reflexivity|]. unfold color_to_f32s. cbn. congruence.
Qed.

(** Acceptance. *)
Lemma split_four s r g b a rest : split_on 44 s = r :: g :: b :: a :: rest ->
  (forall p, In p [r; g; b; a] -> ~ In comma p) /\
  (s = r ++ comma :: g ++ comma :: b ++ comma :: a \/
   exists t, s = r ++ comma :: g ++ comma :: b ++ comma :: a ++ comma :: t).
Proof.
  intros E. split.
  - intros p Hp. apply (split_pieces 44 s). rewrite E. cbn in *. tauto.
  - pose proof (join_split 44 s) as J. rewrite E in J.
    destruct rest as [|q rest]; cbn [join] in J.
    + left. now rewrite <- J.
    + right. eexists. rewrite <- J. reflexivity.
Qed.

Lemma color_parse_exact L s r g b a :
  color_parse L s = Ok (mkColor r g b a) <->
  exists tr tg tb ta,
    (forall p, In p [tr; tg; tb; ta] -> ~ In comma p) /\
    (s = tr ++ comma :: tg ++ comma :: tb ++ comma :: ta \/
     exists t, s = tr ++ comma :: tg ++ comma :: tb ++ comma :: ta ++ comma :: t) /\
    iof_read L tr = Some r /\ iof_read L tg = Some g /\ iof_read L tb = Some b /\ iof_read L ta = Some a.
Proof.
  split.
  - intros H. unfold color_parse in H.
    destruct (split_on 44 s) as [|tr [|tg [|tb [|ta rest]]]] eqn:E; try discriminate.
    apply split_four in E as [E1 E2]. exists tr, tg, tb, ta. split; [assumption|]. split; [assumption|].
    unfold color_component in H.
    destruct (iof_read L tr); [|discriminate]. destruct (iof_read L tg); [|discriminate].
    destruct (iof_read L tb); [|discriminate]. destruct (iof_read L ta); [|discriminate].
    cbn in H. injection H as -> -> -> ->. auto.
  - intros (tr & tg & tb & ta & Hc & Hs & Hr & Hg & Hb & Ha).
    assert (~ In 44 tr /\ ~ In 44 tg /\ ~ In 44 tb /\ ~ In 44 ta) as (Nr & Ng & Nb & Na)
      by (repeat split; apply Hc; cbn; tauto).
    assert (exists rest, split_on 44 s = tr :: tg :: tb :: ta :: rest) as [rest E].
    { destruct Hs as [->|[t ->]]; unfold comma; rewrite !split_on_app by assumption.
      - rewrite split_on_none by assumption. now exists [].
      - eexists. reflexivity. }
    unfold color_parse. rewrite E. unfold color_component. now rewrite Hr, Hg, Hb, Ha.
Qed.

Lemma color_parse_no_panic L s : color_parse L s <> Panic.
Proof.
  unfold color_parse. destruct (split_on 44 s) as [|tr [|tg [|tb [|ta rest]]]]; try discriminate.
  unfold color_component.
  destruct (iof_read L tr); [|discriminate]. destruct (iof_read L tg); [|discriminate].
  destruct (iof_read L tb); [|discriminate]. now destruct (iof_read L ta).
Qed.

(** The printed numbers contain no comma. *)
Lemma show_scaled_chars M k c : In c (show_scaled M k) -> is_digit c = true \/ c = 46.
Proof.
  unfold show_scaled. pose proof (pad_digits (S k) M) as Hd. set (ds := pad_left (S k) (show_dec M)) in *.
  destruct k as [|k]; [intros H; left; now apply Hd|].
  intros H. apply in_app_or in H as [H|H].
  - left. apply Hd. rewrite <- (firstn_skipn (List.length ds - S k) ds). apply in_or_app. now left.
  - destruct H as [<-|H]; [now right|]. left. apply Hd.
    rewrite <- (firstn_skipn (List.length ds - S k) ds). apply in_or_app. now right.
Qed.

Lemma rust_f32_show_no_comma g : ~ In comma (rust_f32_show g).
Proof.
  assert (forall M k, ~ In comma (show_scaled M k)) as H0.
  { intros M k H. apply show_scaled_chars in H as [H|H]; discriminate. }
  destruct g as [s|s| |s m e]; unfold rust_f32_show.
  - destruct s; cbn; intuition discriminate.
  - destruct s; cbn; intuition discriminate.
  - cbn. intuition discriminate.
  - intros H. apply in_app_or in H as [H|H].
    + destruct s; cbn in H; intuition discriminate.
    + unfold show_abs in H. destruct (exact_decimal m e) as [M0 k0].
      destruct (find _ _) as [n|]; [|now apply H0 in H].
      destruct (round_decimal n (M0, k0)) as [M k]. now apply H0 in H.
Qed.

Lemma rust_iof_show_no_comma i : ~ In comma (rust_iof_show i).
Proof.
  destruct i as [z|g]; [|apply rust_f32_show_no_comma]. cbn. unfold comma. intros H. destruct z as [|p|p]; cbn in H.
  - intuition discriminate.
  - apply (show_dec_chars (Npos p)) in H. lia.
  - destruct H as [H|H]; [discriminate|]. apply (show_dec_chars (Npos p)) in H. lia.
Qed.

Lemma rust_color_round_trip c : iof_ok (cr c) -> iof_ok (cg c) -> iof_ok (cb c) -> iof_ok (ca c) ->
  exists c', color_parse rust_num (color_show rust_num c) = Ok c' /\ color_to_f32s c' = color_to_f32s c.
Proof.
  intros Hr Hg Hb Ha. apply color_round_trip_value. intros i Hi.
  split; [|apply rust_iof_show_no_comma].
  assert (iof_ok i) as Ho by (cbn in Hi; intuition congruence).
  destruct i as [z|g].
  - now rewrite (rust_iof_round_trip_int z).
  - destruct Ho. now apply rust_iof_round_trip.
Qed.
