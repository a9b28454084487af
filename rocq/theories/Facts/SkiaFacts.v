(** Facts about Skia paths. *)
Require Import Coq.Lists.List Coq.Arith.Arith Coq.Bool.Bool Coq.ZArith.ZArith Coq.Floats.SpecFloat Coq.micromega.Lia.
Require Import Verif.Model.Base Verif.Model.Float Verif.Model.Num Verif.Model.Point Verif.Model.Contour
  Verif.Model.Kurbo Verif.Model.Mfek Verif.Model.Skia Verif.Spec.ContourSpec Verif.Spec.PathSpec Verif.Spec.SkiaSpec
  Verif.Facts.FloatFacts Verif.Facts.ContourFacts.
Import ListNotations.
Local Open Scope nat_scope.

(** * To paths *)
Section To.
Context {PD : Type} (tx ty : f32 -> f32).
Notation look := (sk_look tx ty).
Implicit Types p q : point PD.

Definition piece_of (p q : point PD) : piece :=
  match pptype q with
  | Line => PLine (sk_at tx ty q)
  | QCurve => PQuad (sk_handle tx ty p WA) (sk_at tx ty q)
  | _ => PCubic (sk_handle tx ty p WA) (sk_handle tx ty q WB) (sk_at tx ty q)
  end.
Fixpoint pieces_of (p : point PD) (l : list (point PD)) : list piece :=
  match l with [] => [] | q :: t => piece_of p q :: pieces_of q t end.

Lemma loop_pieces p l : Forall (fun q => drawable (pptype q)) l -> sk_loop tx ty p l = map verb (pieces_of p l).
Proof.
  revert p; induction l as [|q l IH]; intros p H; [reflexivity|]. cbn [sk_loop pieces_of map]. inversion_clear H as [|? ? Hq Hl].
  rewrite IH by assumption. unfold piece_of. destruct Hq as [->|[->| ->]]; reflexivity.
Qed.
Lemma piece_plain p q : drawable (pptype q) -> forall l, plain (sk_at tx ty p) (piece_of p q :: l) = look (seg_between p q) :: plain (sk_at tx ty q) l.
Proof.
  intros H l. unfold piece_of, look, seg_between, sk_handle, handle_or_colocated, moved, handle_at. cbn.
  destruct H as [->|[->| ->]]; cbn; destruct (pa p), (pb q); reflexivity.
Qed.
Lemma pieces_plain p l : Forall (fun q => drawable (pptype q)) l -> plain (sk_at tx ty p) (pieces_of p l) = map look (segs_from p l).
Proof.
  revert p; induction l as [|q l IH]; intros p H; [reflexivity|]. inversion_clear H as [|? ? Hq Hl]. cbn [pieces_of segs_from map].
  rewrite piece_plain by assumption. now rewrite IH.
Qed.
Lemma segs_from_app p l q : segs_from p (l ++ [q]) = segs_from p l ++ [seg_between (last l p) q].
Proof.
  revert p; induction l as [|r l IH]; intros p; [reflexivity|]. cbn [app segs_from]. rewrite IH.
  now rewrite last_cons.
Qed.

Lemma pieces_end p l : last (map piece_to (pieces_of p l)) (sk_at tx ty p) = sk_at tx ty (last l p).
Proof.
  revert p; induction l as [|q l IH]; intros p; [reflexivity|]. cbn [pieces_of map]. rewrite !last_cons.
  replace (piece_to (piece_of p q)) with (sk_at tx ty q) by (unfold piece_of; destruct (pptype q); reflexivity). apply IH.
Qed.
Lemma pieces_of_app p l q : pieces_of p (l ++ [q]) = pieces_of p l ++ [piece_of (last l p) q].
Proof. revert p; induction l as [|r l IH]; intros p; [reflexivity|]. cbn [app pieces_of]. rewrite IH, last_cons. reflexivity. Qed.

Lemma to_path p t : (pptype p = Move \/ drawable (pptype p)) -> Forall (fun q => drawable (pptype q)) t ->
  exists s, to_skia_path tx ty (p :: t) = Some (verbs s) /\ s_start s = sk_at tx ty p /\
    (s_closed s = true <-> pptype p <> Move) /\ no_conics s /\ draws s (map look (segments (p :: t))) /\
    (pptype p = Line -> map look (segments (p :: t)) = plain (s_start s) (s_pieces s) ++ [SLine (s_end s) (s_start s)]).
Proof.
  intros Hp Ht. unfold to_skia_path, sk_closing. rewrite last_cons. rewrite loop_pieces by assumption.
  assert (NC : forall p l, Forall (fun g => match g with PConic _ _ _ => False | _ => True end) (pieces_of p l)).
  { clear. intros p l. revert p; induction l as [|q l IH]; intros p; constructor; [|apply IH]. unfold piece_of. destruct (pptype q); exact I. }
  assert (Forall (fun q => drawable (pptype q)) (t ++ [p]) -> pptype p <> Line -> pptype p <> Move ->
    plain (sk_at tx ty p) (pieces_of p (t ++ [p])) = map look (closed_segments (p :: t)) /\
    last (map piece_to (pieces_of p (t ++ [p]))) (sk_at tx ty p) = sk_at tx ty p) as C.
  { intros F _ _. split; [now apply pieces_plain|]. rewrite pieces_end, last_last. reflexivity. }
  destruct Hp as [Hm|Hd].
  - exists (mkSub (sk_at tx ty p) (pieces_of p t) false). rewrite Hm. cbn. rewrite Hm. cbn. split; [reflexivity|]. split; [reflexivity|].
    split; [split; congruence|]. split; [apply NC|]. split; [|congruence]. unfold draws. cbn. symmetry. now apply pieces_plain.
  - assert (Forall (fun q => drawable (pptype q)) (t ++ [p])) as F by (apply Forall_app; auto).
    assert (pptype p <> Move) as N by (destruct Hd as [->|[->| ->]]; discriminate).
    assert (segments (p :: t) = closed_segments (p :: t)) as Es by (unfold segments; destruct (pptype p); congruence).
    rewrite Es. destruct (ptype_eqb (pptype p) Move) eqn:E; [exfalso; revert E N; destruct (pptype p); cbn; congruence|]. clear E.
    assert (pptype p = Line \/ pptype p <> Line) as [El|El] by (destruct (pptype p); (left; reflexivity) || (right; discriminate)).
    + exists (mkSub (sk_at tx ty p) (pieces_of p t) true). rewrite El. split; [reflexivity|]. split; [reflexivity|].
      split; [split; [congruence|reflexivity]|]. split; [apply NC|].
      match goal with |- ?A /\ (_ -> ?B) => assert B as B1; [|split; [right; exact B1|intros _; exact B1]] end.
      unfold s_end. cbn [s_closed s_pieces s_start].
      rewrite pieces_end. cbn [closed_segments]. rewrite segs_from_app, map_app, pieces_plain by assumption. f_equal. cbn [map]. unfold sk_look, seg_between. cbn. now rewrite El.
    + exists (mkSub (sk_at tx ty p) (pieces_of p (t ++ [p])) true). destruct (C F El N) as [C1 C2].
      split; [|split; [reflexivity|split; [split; [intros _; exact N|reflexivity]|split; [apply NC|split; [left; auto|congruence]]]]].
      unfold verbs. cbn. rewrite pieces_of_app, map_app. cbn [map]. rewrite <- app_assoc. do 3 f_equal. cbn. unfold piece_of. destruct Hd as [Hd|[Hd|Hd]]; [congruence| |]; rewrite Hd; reflexivity.
Qed.

(** Whole outlines. *)
Definition path_of (c : contour PD) : skpath := match to_skia_path tx ty c with Some s => s | None => [] end.
Definition starts_open (c : contour PD) : bool := match c with p :: _ => ptype_eqb (pptype p) Move | [] => false end.
Lemma paths_loop o op cl :
  skpaths_loop tx ty o op cl =
  Ok (op ++ concat (map path_of (filter starts_open o)), cl ++ concat (map path_of (filter (fun c => negb (starts_open c)) o))).
Proof.
  revert op cl; induction o as [|[|p t] o IH]; intros op cl.
  - cbn. now rewrite !app_nil_r.
  - cbn [skpaths_loop filter starts_open negb map concat]. rewrite IH. unfold path_of at 3. cbn. reflexivity.
  - cbn [skpaths_loop filter starts_open negb]. change (to_skia_path tx ty (p :: t)) with (Some (path_of (p :: t))). cbn iota.
    rewrite !IH. destruct (ptype_eqb (pptype p) Move) eqn:E; cbn [negb map concat]; now rewrite app_assoc.
Qed.
Lemma count_app a b : count_points (a ++ b) = count_points a + count_points b.
Proof. unfold count_points. rewrite map_app. apply list_sum_app. Qed.
Lemma count_paths l : (0 <? count_points (concat (map path_of l))) = true <-> exists c, In c l /\ c <> [].
Proof.
  rewrite Nat.ltb_lt. induction l as [|c l IH]; cbn [map concat].
  - split; [cbn; lia|intros (c & [] & _)].
  - rewrite count_app. destruct c as [|p t].
    + unfold path_of at 1. cbn. rewrite IH. split; intros (c & Hc & Hn); exists c; [auto|]. destruct Hc as [<-|Hc]; [congruence|auto].
    + unfold path_of at 1. cbn. split; [intros _; exists (p :: t); split; [now left|discriminate]|lia].
Qed.
End To.

(** * From paths *)

(** The events of pieces. *)
Definition tuple_of (cur : skpoint) (g : piece) : sktuple :=
  match g with
  | PLine q => (Line, [cur; q], None)
  | PQuad a q => (QCurve, [cur; a; q], None)
  | PConic a q w => (QCurve, [cur; a; q], Some w)
  | PCubic a b q => (Curve, [cur; a; b; q], None)
  end.
Fixpoint tuples_of (cur : skpoint) (l : list piece) : list sktuple :=
  match l with [] => [] | g :: l => tuple_of cur g :: tuples_of (piece_to g) l end.
Definition draw (t : sktuple) : skevent := let '(ty, pts, w) := t in Draw ty pts w.
Definition back (s : subpath) : list sktuple :=
  if sk_eqb (s_end s) (s_start s) then [] else [(Line, [s_end s; s_start s], None)].
Definition raw (s : subpath) : skcontour :=
  if s_closed s then tuples_of (s_start s) (s_pieces s) ++ back s
  else (Move, [s_start s], None) :: tuples_of (s_start s) (s_pieces s).

Lemma iter_pieces l : forall cur start rest,
  sk_iter cur start (map verb l ++ rest) = map draw (tuples_of cur l) ++ sk_iter (last (map piece_to l) cur) start rest.
Proof.
  induction l as [|g l IH]; intros cur start rest; [reflexivity|]. cbn [map]. rewrite last_cons.
  destruct g; cbn [verb app tuples_of tuple_of map draw piece_to]; cbn [sk_iter]; now rewrite IH.
Qed.
Lemma sk_nan_proper p : proper p -> sk_nan p = false.
Proof. intros [H1 H2]. unfold sk_nan. now rewrite H1, H2. Qed.
(** One subpath followed by others. *)
Lemma iter_sub s rest cur start : proper (s_start s) -> proper (s_end s) ->
  (s_pieces s <> [] \/ s_closed s = true \/ rest <> []) ->
  exists cur' start',
  sk_iter cur start (verbs s ++ rest) =
  Draw Move [s_start s] None :: map draw (tuples_of (s_start s) (s_pieces s)) ++
  (if s_closed s then map draw (back s) ++ [EClose] else []) ++ sk_iter cur' start' rest.
Proof.
  intros P1 P2 H. unfold verbs. cbn [app].
  assert (map verb (s_pieces s) ++ (if s_closed s then [SkClose] else []) ++ rest <> []) as N.
  { intros E. apply app_eq_nil in E as [E1 E2]. apply app_eq_nil in E2 as [E2 E3]. destruct H as [H|[H|H]]; [|rewrite H in E2; discriminate|auto].
    apply H. now destruct (s_pieces s). }
  rewrite <- app_assoc.
  assert (forall l, l <> [] -> sk_iter cur start (SkMove (s_start s) :: l) = Draw Move [s_start s] None :: sk_iter (s_start s) (s_start s) l) as E by (intros [|? ?] ?; [congruence|reflexivity]).
  rewrite (E _ N). rewrite iter_pieces. fold (s_end s). destruct (s_closed s); cbn [app].
  - cbn [sk_iter]. unfold auto_close, back. rewrite (sk_nan_proper _ P1), (sk_nan_proper _ P2), !orb_false_r.
    exists (s_start s), (s_start s). f_equal. f_equal. destruct (sk_eqb (s_end s) (s_start s)); reflexivity.
  - eexists _, _. reflexivity.
Qed.

Definition push (o : list skcontour) (c : skcontour) : list skcontour := if 0 <? length c then o ++ [c] else o.
Lemma split_draws dbg l : forall o c r, Forall (fun t => fst (fst t) <> Move) l ->
  sk_split_loop dbg (o, c) (map draw l ++ r) = sk_split_loop dbg (o, c ++ l) r.
Proof.
  induction l as [|[[ty pts] w] l IH]; intros o c r H; [cbn; now rewrite app_nil_r|]. inversion_clear H as [|? ? H1 H2]. cbn in H1. cbn [map draw app].
  replace (c ++ (ty, pts, w) :: l) with ((c ++ [(ty, pts, w)]) ++ l) by now rewrite <- app_assoc.
  rewrite <- IH by assumption. cbn [sk_split_loop sk_split_step]. destruct ty; try congruence; reflexivity.
Qed.
Lemma tuples_no_move l : forall cur, Forall (fun t : sktuple => fst (fst t) <> Move) (tuples_of cur l).
Proof. induction l as [|g l IH]; intros cur; constructor; [destruct g; discriminate|apply IH]. Qed.
Lemma back_no_move s : Forall (fun t : sktuple => fst (fst t) <> Move) (back s).
Proof. unfold back. destruct (sk_eqb _ _); constructor; [discriminate|constructor]. Qed.

Lemma split_sub dbg s o c r :
  sk_split_loop dbg (o, c)
    (Draw Move [s_start s] None :: map draw (tuples_of (s_start s) (s_pieces s)) ++
     (if s_closed s then map draw (back s) ++ [EClose] else []) ++ r) =
  sk_split_loop dbg (push o c, raw s) r.
Proof.
  cbn [sk_split_loop sk_split_step bind]. fold (push o c). rewrite split_draws by apply tuples_no_move. unfold raw. destruct (s_closed s); cbn [app]; [|reflexivity].
  rewrite <- app_assoc. rewrite split_draws by apply back_no_move. cbn [app sk_split_loop sk_split_step bind]. rewrite andb_false_r. cbn [bind]. reflexivity.
Qed.

(** The subpaths that leave something, by their pieces. *)
Lemma raw_nonempty s : (s_pieces s <> [] \/ s_closed s = false) -> 0 <? length (raw s) = true.
Proof.
  intros H. apply Nat.ltb_lt. unfold raw. destruct (s_closed s).
  - destruct H as [H|H]; [|discriminate]. destruct (s_pieces s); [congruence|]. cbn. lia.
  - cbn. lia.
Qed.
Lemma sk_eqb_refl p : proper p -> sk_eqb p p = true.
Proof. intros [H1 H2]. unfold sk_eqb. now rewrite !feq_refl. Qed.
Lemma same_refl p : proper p -> same_place p p.
Proof. intros [H1 H2]. split; now apply feq_refl. Qed.
Lemma raw_empty s : s_pieces s = [] -> s_closed s = true -> proper (s_start s) -> raw s = [].
Proof. intros H1 H2 H3. unfold raw, back, s_end. rewrite H1, H2. cbn. now rewrite sk_eqb_refl. Qed.

Lemma split_all dbg subs : Forall (fun s => proper (s_start s) /\ proper (s_end s)) subs ->
  forall o c cur start, exists o' c',
    sk_split_loop dbg (o, c) (sk_iter cur start (concat (map verbs subs))) = Ok (o', c') /\
    push o' c' = push o c ++ map raw (kept_subs subs).
Proof.
  induction subs as [|s subs IH]; intros H o c cur start.
  - cbn. exists o, c. split; [reflexivity|now rewrite app_nil_r].
  - inversion_clear H as [|? ? [P1 P2] H2]. cbn [map concat].
    assert ((s_pieces s = [] /\ s_closed s = false /\ subs = []) \/ (s_pieces s <> [] \/ s_closed s = true \/ subs <> [])) as [(E1 & E2 & ->)|N].
    { destruct (s_pieces s); [|right; left; discriminate]. destruct (s_closed s); [right; right; now left|]. destruct subs; [now left|right; right; right; discriminate]. }
    + cbn [map concat]. unfold verbs. rewrite E1, E2. cbn [map app]. exists o, c. cbn [sk_iter sk_split_loop]. cbn [kept_subs]. rewrite E1, E2. split; [reflexivity|cbn; now rewrite app_nil_r].
    + assert (concat (map verbs subs) <> [] \/ subs = []) as Nc by (destruct subs; [now right|left; discriminate]).
      destruct (iter_sub s (concat (map verbs subs)) cur start P1 P2) as (cur' & start' & ->).
      { destruct N as [N|[N|N]]; auto. destruct Nc as [Nc|Nc]; [auto|congruence]. }
      rewrite split_sub. destruct (IH H2 (push o c) (raw s) cur' start') as (o' & c' & E & F). exists o', c'. split; [assumption|]. rewrite F.
      cbn [kept_subs].
      assert ((s_pieces s = [] /\ s_closed s = true) \/ (s_pieces s <> [] \/ s_closed s = false)) as [[E1 E2]|M].
      { destruct (s_pieces s); [|right; left; discriminate]. destruct (s_closed s); auto. }
      * unfold push at 1. rewrite (raw_empty s E1 E2 P1). rewrite E1, E2. reflexivity.
      * unfold push at 1. rewrite (raw_nonempty s M). rewrite <- app_assoc. f_equal. cbn [app].
        destruct (s_pieces s) as [|g gs] eqn:E1; [|destruct (s_closed s); reflexivity]. destruct M as [M|M]; [congruence|]. rewrite M.
        destruct subs as [|t subs]; [|reflexivity]. exfalso. destruct N as [N|[N|N]]; congruence.
Qed.
Lemma split_path dbg subs : Forall (fun s => proper (s_start s) /\ proper (s_end s)) subs ->
  split_skia_path dbg (concat (map verbs subs)) = Ok (map raw (kept_subs subs)).
Proof.
  intros H. unfold split_skia_path. match goal with |- context [sk_split_loop _ (?o, ?c) (sk_iter ?a ?b _)] => destruct (split_all dbg subs H o c a b) as (o1 & c1 & E1 & E) end.
  match goal with |- bind ?x _ = _ => assert (x = Ok (o1, c1)) as -> by exact E1 end. cbn [bind]. cbn in E. rewrite <- E. reflexivity.
Qed.

(** Conics and quadratic curves become cubic ones. *)
Definition tp (s : stroke) : sktuple :=
  match s with
  | SLine p q => (Line, [p; q], None)
  | SQuad p a q => (QCurve, [p; a; q], None)
  | SCubic p a b q => (Curve, [p; a; b; q], None)
  end.
Section Conic.
Context (conic : skpoint -> skpoint -> skpoint -> f32 -> skpoint * skpoint * skpoint * skpoint * skpoint).
Lemma convert_tuple dbg cur g : bind (conic_points conic dbg (tuple_of cur g)) quads_to_cubics = Ok (map tp (of_piece conic cur g)).
Proof.
  destruct g; cbn; try reflexivity. rewrite andb_false_r. cbn. destruct (conic cur a q w) as [[[[q0 q1] q2] q3] q4]. reflexivity.
Qed.
Lemma mapM_app {A B} (f : A -> res B) l l' : mapM f (l ++ l') = let* a := mapM f l in let* b := mapM f l' in Ok (a ++ b).
Proof.
  induction l as [|x l IH]; cbn; [now destruct (mapM f l')|]. destruct (f x); cbn; try reflexivity. rewrite IH. destruct (mapM f l); cbn; try reflexivity.
  now destruct (mapM f l').
Qed.
Lemma convert_tuples dbg l : forall cur, exists m ms, mapM (conic_points conic dbg) (tuples_of cur l) = Ok m /\
  mapM quads_to_cubics m = Ok ms /\ concat ms = map tp (of_pieces conic cur l).
Proof.
  induction l as [|g l IH]; intros cur; [exists [], []; repeat split|]. cbn [tuples_of mapM].
  pose proof (convert_tuple dbg cur g) as E. destruct (conic_points conic dbg (tuple_of cur g)) as [t| |] eqn:Et; cbn [bind] in E; try discriminate. cbn [bind].
  destruct (IH (piece_to g)) as (m & ms & -> & E2 & E3). cbn [bind]. exists (t :: m), (map tp (of_piece conic cur g) :: ms).
  split; [reflexivity|]. cbn [mapM]. rewrite E. cbn [bind]. rewrite E2. split; [reflexivity|]. cbn [concat of_pieces]. now rewrite E3, map_app.
Qed.
Definition ready (s : subpath) : skcontour :=
  if s_closed s then map tp (sub_strokes conic s) else (Move, [s_start s], None) :: map tp (sub_strokes conic s).
Lemma back_strokes s : s_closed s = true -> sub_strokes conic s = of_pieces conic (s_start s) (s_pieces s) ++ (if sk_eqb (s_end s) (s_start s) then [] else [SLine (s_end s) (s_start s)]).
Proof. intros H. unfold sub_strokes. now rewrite H. Qed.
Lemma convert_raw dbg s : exists m ms, mapM (conic_points conic dbg) (raw s) = Ok m /\ mapM quads_to_cubics m = Ok ms /\ concat ms = ready s.
Proof.
  destruct (convert_tuples dbg (s_pieces s) (s_start s)) as (m & ms & E1 & E2 & E3). unfold raw, ready, sub_strokes. destruct (s_closed s).
  - rewrite mapM_app, E1. cbn [bind]. unfold back. destruct (sk_eqb _ _).
    + cbn. exists m, ms. rewrite !app_nil_r. auto.
    + cbn. eexists. exists (ms ++ [[(Line, [s_end s; s_start s], None)]]). split; [reflexivity|]. rewrite mapM_app, E2. cbn. split; [reflexivity|]. rewrite concat_app, E3, map_app. reflexivity.
  - cbn [mapM conic_points bind]. rewrite E1. cbn [bind]. exists ((Move, [s_start s], None) :: m), ([(Move, [s_start s], None)] :: ms).
    split; [reflexivity|]. cbn [mapM quads_to_cubics bind]. rewrite E2. cbn [bind concat app]. rewrite E3, app_nil_r. auto.
Qed.
Lemma convert_all dbg l : conics_to_cubics conic dbg (map raw l) = Ok (map ready l).
Proof.
  unfold conics_to_cubics. induction l as [|s l IH]; [reflexivity|]. cbn [map mapM]. destruct (convert_raw dbg s) as (m & ms & -> & E2 & E3). cbn [bind].
  destruct (mapM (mapM (conic_points conic dbg)) (map raw l)) as [o| |]; cbn [bind] in IH |- *; try discriminate. cbn [mapM]. rewrite E2. cbn [bind]. rewrite IH. cbn [bind]. now rewrite E3.
Qed.
Lemma ready_nonempty subs : Forall (fun s => ready s <> []) (kept_subs subs).
Proof.
  induction subs as [|s t IH]; cbn [kept_subs]; [constructor|].
  assert (forall s, s_closed s = false \/ s_pieces s <> [] -> ready s <> []) as R.
  { clear. intros s H. unfold ready, sub_strokes. destruct (s_closed s); [|discriminate]. destruct H as [H|H]; [discriminate|].
    destruct (s_pieces s) as [|[] ?]; cbn; try congruence; try discriminate. destruct (conic (s_start s) a q w) as [[[[? ?] ?] ?] ?]. discriminate. }
  specialize (R s). destruct (s_pieces s) as [|g gs] eqn:E; destruct (s_closed s) eqn:E2; try (constructor; [apply R; (now left) || (right; discriminate)|assumption]); [assumption|].
  destruct t; [constructor|]. constructor; [apply R; now left|assumption].
Qed.
End Conic.

(** The points made for strokes that are lines or cubic curves. *)
Section Points.
Context {PD : Type}.
Definition plain_stroke (s : stroke) : Prop := match s with SQuad _ _ _ => False | _ => True end.
Definition sout (s : stroke) : handle := match s with SCubic _ a _ _ => sk_handle_at a | _ => Colocated end.
Definition inc (o : option stroke) : handle := match o with Some (SCubic _ _ b _) => sk_handle_at b | _ => Colocated end.
Definition skind (s : stroke) : ptype := match s with SCubic _ _ _ _ => Curve | _ => Line end.
Definition kind2 (o : option stroke) (s : stroke) : ptype :=
  match o with Some (SCubic _ _ _ _) => Curve | _ => skind s end.
Definition mkp (p : skpoint) (a b : handle) (t : ptype) : point PD := mkPoint (fst p) (snd p) a b None t false None.
Definition pt_of (o : option stroke) (s : stroke) : point PD := mkp (stroke_from s) (sout s) (inc o) (kind2 o s).
Fixpoint pts_of (o : option stroke) (l : list stroke) : list (point PD) :=
  match l with [] => [] | s :: l => pt_of o s :: pts_of (Some s) l end.

Inductive repr : sktuple -> option stroke -> Prop :=
| repr_move p : repr (Move, [p], None) None
| repr_stroke s : plain_stroke s -> repr (tp s) (Some s).

(** What the last stroke does to the first point. *)
Definition fix_first (f : sktuple) (s : stroke) (p : point PD) : point PD :=
  match s with
  | SCubic _ _ b _ =>
      with_b (match f with (Curve, _ :: q :: _, _) => with_a p (sk_handle_at q) | _ => p end) (sk_handle_at b)
  | _ => p
  end.

Lemma step_mid dbg skc c i s t o : idx skc i = Ok (tp s) -> plain_stroke s -> idx skc (i - 1) = Ok t -> repr t o ->
  i <> 0 -> i <> length skc - 1 -> from_step dbg skc c i = Ok (c ++ [pt_of o s]).
Proof.
  intros Hs Ps Ht R Hi Hl. unfold from_step.
  destruct (idx skc 0) as [f| |] eqn:Ef.
  2,3: exfalso; unfold idx in *; destruct skc; cbn in *; try discriminate; destruct i; discriminate.
  cbn [bind]. rewrite Hs. cbn [bind]. replace (i =? 0) with false by (symmetry; now apply Nat.eqb_neq). rewrite Ht.
  replace (i =? length skc - 1) with false by (symmetry; now apply Nat.eqb_neq).
  destruct s as [p q| |p a b q]; try contradiction; cbn; rewrite andb_false_r; inversion R as [x|[| |] P]; subst; try contradiction; reflexivity.
Qed.
Lemma step_last dbg skc p l i s t o f : idx skc i = Ok (tp s) -> plain_stroke s -> idx skc (i - 1) = Ok t -> repr t o ->
  i <> 0 -> i = length skc - 1 -> idx skc 0 = Ok f -> (exists o, repr f o) ->
  from_step dbg skc (p :: l) i = Ok (fix_first f s p :: l ++ [pt_of o s]).
Proof.
  intros Hs Ps Ht R Hi Hl Hf [o' Rf]. unfold from_step. rewrite Hf. cbn [bind]. rewrite Hs. cbn [bind].
  replace (i =? 0) with false by (symmetry; now apply Nat.eqb_neq). rewrite Ht.
  replace (i =? length skc - 1) with true by (symmetry; now apply Nat.eqb_eq).
  destruct s as [x q| |x a b q]; try contradiction; cbn; rewrite andb_false_r; inversion R as [y|[| |] P]; subst; try contradiction; try reflexivity;
    inversion Rf as [z|[| |] P2]; subst; try contradiction; reflexivity.
Qed.

Lemma idx_mid {A} (pre : list A) x l : idx (pre ++ x :: l) (length pre) = Ok x.
Proof. unfold idx. rewrite nth_error_app2 by lia. now rewrite Nat.sub_diag. Qed.
Lemma loop_all dbg f of_ skc l : forall pre t o p c, skc = pre ++ t :: map tp l -> l <> [] -> Forall plain_stroke l ->
  repr t o -> idx skc 0 = Ok f -> repr f of_ ->
  from_loop dbg skc (p :: c) (seq (S (length pre)) (length l)) = Ok (fix_first f (last l (SLine (pos_zero, pos_zero) (pos_zero, pos_zero))) p :: c ++ pts_of o l).
Proof.
  induction l as [|s l IH]; intros pre t o p c Es N Fl R Hf Rf; [congruence|]. inversion_clear Fl as [|? ? Ps Pl]. cbn [length seq from_loop].
  assert (idx skc (S (length pre)) = Ok (tp s)) as Hs.
  { rewrite Es. cbn [map]. change (pre ++ t :: tp s :: map tp l) with (pre ++ [t] ++ tp s :: map tp l). rewrite app_assoc.
    replace (S (length pre)) with (length (pre ++ [t])) by (rewrite app_length; cbn; lia). apply idx_mid. }
  assert (idx skc (S (length pre) - 1) = Ok t) as Ht by (rewrite Es; cbn; rewrite Nat.sub_0_r; apply idx_mid).
  assert (length skc = length pre + S (S (length l))) as El by (rewrite Es, app_length; cbn; now rewrite map_length).
  destruct l as [|s2 l].
  - rewrite (step_last dbg skc p c _ s t o f Hs Ps Ht R ltac:(lia) ltac:(cbn in El; lia) Hf (ex_intro _ _ Rf)). cbn. reflexivity.
  - rewrite (step_mid dbg skc (p :: c) _ s t o Hs Ps Ht R ltac:(lia) ltac:(cbn in El; lia)). cbn [bind app].
    change (S (S (length pre))) with (S (S (length pre))). replace (S (S (length pre))) with (S (length (pre ++ [t]))) by (rewrite app_length; cbn; lia).
    rewrite (IH (pre ++ [t]) (tp s) (Some s) p (c ++ [pt_of o s])); try assumption; try discriminate.
    + rewrite <- app_assoc. reflexivity.
    + rewrite Es, <- app_assoc. reflexivity.
    + now constructor.
Qed.

(** Closed subpaths. *)
Definition head_of (s l : stroke) : point PD := mkp (stroke_from s) (sout s) (inc (Some l)) (skind s).
Lemma from_closed dbg s l : plain_stroke s -> Forall plain_stroke l ->
  from_skcontour (PD := PD) dbg (map tp (s :: l)) =
  match s, l with
  | SCubic _ _ _ _, [] => Panic
  | _, _ => Ok (head_of s (last l s) :: pts_of (Some s) l)
  end.
Proof.
  intros Ps Pl. unfold from_skcontour. change (idx (map tp (s :: l)) 0) with (Ok (tp s)). cbn [bind]. rewrite map_length. cbn [length seq from_loop].
  destruct l as [|s2 l].
  - destruct s as [p q| |p a b q]; try contradiction; cbn; rewrite andb_false_r; reflexivity.
  - assert (Hr : length (s2 :: l) <> 0 /\ forall d d', last (s2 :: l) d = last (s2 :: l) d') by (split; [discriminate|intros; now rewrite !last_cons]).
    assert (Nr : s2 :: l <> []) by discriminate. revert Pl Hr Nr. generalize (s2 :: l) as r. intros r Pl [Hr Hd] Nr.
    assert (from_step dbg (map tp (s :: r)) [] 0 =
      Ok [mkp (stroke_from s) (sout s) (match s with SCubic _ _ _ _ => inc (Some (last r s)) | _ => Colocated end) (skind s)]) as E.
    { unfold from_step. change (idx (map tp (s :: r)) 0) with (Ok (tp s)). cbn [bind].
      assert (idx (map tp (s :: r)) (length (map tp (s :: r)) - 1) = Ok (tp (last r s))) as El.
      { rewrite map_length. cbn [length]. unfold idx. rewrite nth_error_map. clear Pl.
        assert (nth_error (s :: r) (S (length r) - 1) = Some (last r s)) as ->; [|reflexivity].
        replace (S (length r) - 1) with (length r) by lia. clear. revert s. induction r as [|x r IH]; intros s; [reflexivity|]. cbn [length]. cbn [nth_error]. rewrite IH. now rewrite last_cons. }
      change (0 =? 0) with true. cbn iota. rewrite El. replace (0 =? length (map tp (s :: r)) - 1) with false by (symmetry; apply Nat.eqb_neq; rewrite map_length; cbn; lia).
      assert (plain_stroke (last r s)) as PL.
      { clear - Ps Pl. revert s Ps. induction Pl as [|x r Px Pl IH]; intros s Ps; [assumption|]. rewrite last_cons. now apply IH. }
      destruct s as [p q| |p a b q]; try contradiction; cbn; rewrite andb_false_r; cbn; [reflexivity|].
      destruct (last r (SCubic p a b q)); try contradiction; reflexivity. }
    rewrite E. cbn [bind].
    rewrite (loop_all dbg (tp s) (Some s) (map tp (s :: r)) r [] (tp s) (Some s) _ []); try reflexivity; try assumption; try discriminate; try (now constructor).
    cbn [bind app].
    assert (last r (SLine (pos_zero, pos_zero) (pos_zero, pos_zero)) = last r s) as -> by apply Hd.
    assert (forall x, x = head_of s (last r s) -> ptype_eqb (pptype x) Move = false) as M by (intros x ->; destruct s; reflexivity).
    match goal with |- (if ptype_eqb (pptype ?x) Move then _ else _) = _ => assert (x = head_of s (last r s)) as -> end.
    { destruct s as [p q| |p a b q]; try contradiction; destruct (last r _) eqn:El; reflexivity. }
    rewrite (M _ eq_refl). destruct s; try contradiction; reflexivity.
Qed.

(** Open subpaths. *)
Definition final_of (s : stroke) : point PD :=
  mkp (stroke_to s) Colocated
    (match s with SCubic _ _ b q => if sk_eqb q b then Colocated else sk_handle_at b | _ => Colocated end) (skind s).
Lemma pts_last_kind o l d : l <> [] -> pptype (last (pts_of o l) d) = Curve \/ pptype (last (pts_of o l) d) = Line.
Proof.
  revert o d; induction l as [|s l IH]; intros o d H; [congruence|]. cbn [pts_of]. rewrite last_cons. destruct l as [|s2 l].
  - cbn. destruct o as [[]|], s; cbn; auto.
  - apply IH. discriminate.
Qed.
Lemma idx_last {A} (l : list A) x d : idx (x :: l) (length (x :: l) - 1) = Ok (last l x) /\ (l <> [] -> last l x = last l d).
Proof.
  split.
  - unfold idx. cbn [length]. replace (S (length l) - 1) with (length l) by lia. revert x; induction l as [|y l IH]; intros x; [reflexivity|].
    cbn [length nth_error]. rewrite IH. now rewrite last_cons.
  - destruct l; [congruence|]. intros _. now rewrite !last_cons.
Qed.
Ltac rw_last :=
  match goal with |- context [@idx ?A (?x :: ?l) ?i] =>
    match i with length _ - 1 => assert (@idx A (x :: l) i = Ok (last l x)) as -> by apply (idx_last l x x) end
  end.
Lemma last_map {A B} (f : A -> B) l d : last (map f l) (f d) = f (last l d).
Proof. revert d; induction l as [|x l IH]; intros d; [reflexivity|]. cbn [map]. rewrite !last_cons. apply IH. Qed.
Lemma from_open dbg p l : Forall plain_stroke l -> (forall s t, l = s :: t -> stroke_from s = p) -> proper p ->
  from_skcontour (PD := PD) dbg ((Move, [p], None) :: map tp l) =
  Ok (match l with
      | [] => [mkp p Colocated Colocated Move]
      | s :: t => mkp p (sout s) Colocated Move :: pts_of (Some s) t ++ [final_of (last t s)]
      end).
Proof.
  intros Pl Hp Pp. unfold from_skcontour. change (idx ((Move, [p], None) :: map tp l) 0) with (Ok (Move, [p], @None f32)). cbn [bind length]. rewrite map_length. cbn [seq from_loop].
  assert (from_step dbg ((Move, [p], None) :: map tp l) [] 0 = Ok [mkp p Colocated Colocated Move]) as E.
  { unfold from_step. change (idx ((Move, [p], None) :: map tp l) 0) with (Ok (Move, [p], @None f32)). cbn [bind]. rewrite andb_false_r. change (0 =? 0) with true. cbn iota.
    rw_last. reflexivity. }
  rewrite E. cbn [bind]. destruct l as [|s t]; [cbn; rewrite ?andb_false_r; reflexivity|].
  rewrite (loop_all dbg (Move, [p], None) None ((Move, [p], None) :: map tp (s :: t)) (s :: t) [] (Move, [p], None) None _ []); try reflexivity; try assumption; try discriminate; try (now constructor).
  cbn [bind app]. rewrite last_cons. set (p0 := fix_first (Move, [p], None) (last t s) (mkp p Colocated Colocated Move)).
  assert (p0 = mkp p Colocated (match last t s with SCubic _ _ b _ => sk_handle_at b | _ => Colocated end) Move) as E0.
  { unfold p0. destruct (last t s); reflexivity. }
  clearbody p0. subst p0. cbn [pptype mkp ptype_eqb]. unfold fixup_skia_open_contour.
  rewrite last_cons. unfold push_last.
  pose proof (pts_last_kind None (s :: t) (mkp p Colocated (match last t s with SCubic _ _ b _ => sk_handle_at b | _ => Colocated end) Move) ltac:(discriminate)) as K.
  set (lst := last (pts_of None (s :: t)) _) in *.
  rw_last.
  cbn [map]. rewrite last_cons, (last_map tp).
  assert (plain_stroke (last t s)) as PL.
  { inversion_clear Pl as [|? ? Ps Pt]. clear - Ps Pt. revert s Ps. induction Pt as [|x r Px Pl IH]; intros s Ps; [assumption|]. rewrite last_cons. now apply IH. }
  assert (stroke_from s = p) as Es by (eapply Hp; reflexivity).
  assert (forall c, match pptype lst with Curve | Line => bind (Ok (tp (last t s))) (fun e => match snd (fst e) with
      | [_; p] => Ok (c ++ [mkPoint (fst p) (snd p) Colocated Colocated None Line false None])
      | [_; _; h; p] => Ok (c ++ [mkPoint (fst p) (snd p) Colocated (if sk_eqb p h then Colocated else sk_handle_at h) None Curve false None])
      | _ => Panic end) | _ => Ok c end = Ok (c ++ [final_of (last t s)])) as G.
  { intros c. destruct K as [-> | ->]; destruct (last t s); try contradiction; reflexivity. }
  cbn zeta. rewrite G. cbn [bind app pts_of merge_first].
  replace (feq (px (pt_of None s)) _ && feq (py (pt_of None s)) _) with true.
  2:{ symmetry. cbn. rewrite Es. now apply sk_eqb_refl. }
  reflexivity.
Qed.

(** What the points draw. *)
Notation look := (sk_look (fun x => x) (fun y => y)).
Definition at_start (q : point PD) (s : stroke) : Prop := (px q, py q) = stroke_from s /\ pa q = sout s.
Fixpoint chained (l : list stroke) : Prop :=
  match l with
  | s :: ((s2 :: _) as t) => stroke_to s = stroke_from s2 /\ chained t
  | _ => True
  end.
Lemma curve_refl s : proper_stroke s -> plain_stroke s -> same_curve s s.
Proof. destruct s; try contradiction; cbn; intros H _; repeat split; try apply feq_refl; apply H. Qed.
Lemma moved_id p : moved (fun x => x) (fun y => y) p = p.
Proof. now destruct p. Qed.
Lemma chain_drawn E x l : forall s q, at_start q s -> chained (s :: l) -> Forall proper_stroke (s :: l) -> Forall plain_stroke (s :: l) ->
  (forall q', at_start q' (last l s) -> same_curve x (look (seg_between q' E))) ->
  Forall2 same_curve (removelast (s :: l) ++ [x]) (map look (segs_from q (pts_of (Some s) l ++ [E]))).
Proof.
  induction l as [|s2 l IH]; intros s q A C P N X.
  - cbn. constructor; [|constructor]. now apply X.
  - destruct C as [C1 C2]. inversion_clear P as [|? ? P1 P2]. inversion_clear N as [|? ? N1 N2].
    change (removelast (s :: s2 :: l)) with (s :: removelast (s2 :: l)). cbn [pts_of app segs_from map]. constructor.
    + unfold sk_look, seg_between. destruct A as [A1 A2]. cbn [sg_from sg_to sg_out sg_in sg_kind pptype px py pa pb pt_of mkp].
      rewrite A1, A2, <- surjective_pairing, <- C1, !moved_id. destruct s as [p r| |p a b r]; try contradiction; cbn [inc kind2 sout stroke_from stroke_to handle_at skind].
      * assert (same_curve (SLine p r) (SLine p r)) as S by now apply curve_refl. destruct s2; try exact S; cbn in S |- *; destruct N1; exact S.
      * unfold sk_handle_at. cbn [handle_at]. rewrite <- !surjective_pairing. now apply curve_refl.
    + apply IH; try assumption.
      * split; [cbn; now rewrite <- surjective_pairing|reflexivity].
      * intros q' A'. apply X. now rewrite last_cons.
Qed.
Lemma removelast_last (s : stroke) l : removelast (s :: l) ++ [last l s] = s :: l.
Proof. rewrite <- (last_cons s s l). symmetry. apply app_removelast_last. discriminate. Qed.
Lemma last_in {A} (l : list A) x : In (last l x) (x :: l).
Proof. revert x; induction l as [|y l IH]; intros x; [now left|]. rewrite last_cons. right. apply IH. Qed.

Lemma open_drawn p s l : stroke_from s = p -> chained (s :: l) -> Forall proper_stroke (s :: l) -> Forall plain_stroke (s :: l) ->
  Forall2 same_curve (s :: l) (strokes (mkp p (sout s) Colocated Move :: pts_of (Some s) l ++ [final_of (last l s)])).
Proof.
  intros Es C P N. unfold strokes, segments. cbn [pptype mkp]. cbn [open_segments]. rewrite <- (removelast_last s l) at 1.
  apply chain_drawn; try assumption.
  - split; [cbn; now rewrite <- surjective_pairing|reflexivity].
  - intros q [A1 A2]. pose proof (proj1 (Forall_forall _ _) P _ (last_in l s)) as PL. pose proof (proj1 (Forall_forall _ _) N _ (last_in l s)) as NL.
    unfold sk_look, seg_between. cbn [sg_from sg_to sg_out sg_in sg_kind pptype px py pa pb final_of mkp]. rewrite A1, A2, <- surjective_pairing.
    destruct (last l s) as [x y| |x a b y]; try contradiction; cbn [skind stroke_from stroke_to sout handle_at].
    + rewrite !moved_id. now apply curve_refl.
    + rewrite !moved_id. unfold sk_handle_at. cbn [handle_at]. rewrite <- surjective_pairing. destruct PL as (P1 & P2 & P3 & P4). cbn.
      split; [now apply same_refl|]. split; [now apply same_refl|]. split; [|now apply same_refl].
      destruct (sk_eqb y b) eqn:E; cbn [handle_at].
      * apply andb_true_iff in E as [E1 E2]. split; cbn; rewrite feq_sym; assumption.
      * cbn. rewrite <- surjective_pairing. now apply same_refl.
Qed.
Definition last_drawn (s l : stroke) : stroke := match s, l with SLine _ _, SCubic p _ _ q => SLine p q | _, _ => l end.
Lemma closed_drawn s l : chained (s :: l) -> Forall proper_stroke (s :: l) -> Forall plain_stroke (s :: l) ->
  same_place (stroke_to (last l s)) (stroke_from s) ->
  Forall2 same_curve
    (removelast (s :: l) ++ [last_drawn s (last l s)])
    (strokes (head_of s (last l s) :: pts_of (Some s) l)).
Proof.
  intros C P N B. unfold strokes.
  assert (segments (head_of s (last l s) :: pts_of (Some s) l) = segs_from (head_of s (last l s)) (pts_of (Some s) l ++ [head_of s (last l s)])) as ->.
  { unfold segments, head_of, mkp. cbn [pptype]. destruct s; reflexivity. }
  apply chain_drawn; try assumption.
  - split; [cbn; now rewrite <- surjective_pairing|reflexivity].
  - intros q [A1 A2]. pose proof (proj1 (Forall_forall _ _) P _ (last_in l s)) as PL. pose proof (proj1 (Forall_forall _ _) N _ (last_in l s)) as NL.
    inversion_clear N as [|? ? N1 N2]. unfold sk_look, seg_between. cbn [sg_from sg_to sg_out sg_in sg_kind pptype px py pa pb head_of mkp]. rewrite A1, A2, <- surjective_pairing. rewrite !moved_id.
    unfold last_drawn; destruct s as [u v| |u d e v]; try contradiction; destruct (last l _) as [x y| |x a b y]; try contradiction; cbn [skind stroke_from stroke_to sout handle_at inc] in *; unfold sk_handle_at; cbn [handle_at];
    rewrite ?moved_id, <- ?surjective_pairing; cbn in PL |- *; repeat match goal with H : _ /\ _ |- _ => destruct H end; repeat split; try assumption; try (now apply feq_refl); try apply feq_refl;
    repeat match goal with H : proper _ |- _ => destruct H end; repeat match goal with H : same_place _ _ |- _ => destruct H end; try assumption.
Qed.
End Points.

(** * Whole paths *)
Section Whole.
Context (conic : skpoint -> skpoint -> skpoint -> f32 -> skpoint * skpoint * skpoint * skpoint * skpoint) (Hc : keeps_ends conic).
Context {PD : Type}.

Lemma last_app_ne {A} (a b : list A) d : b <> [] -> last (a ++ b) d = last b d.
Proof.
  intros H. destruct (exists_last H) as (b' & x & ->). rewrite app_assoc, !last_last. reflexivity.
Qed.
Lemma chained_app a b d : chained a -> chained b -> (forall s t, b = s :: t -> a <> [] -> stroke_to (last a d) = stroke_from s) -> chained (a ++ b).
Proof.
  induction a as [|x a IH]; intros Ca Cb H; [exact Cb|]. destruct a as [|y a].
  - destruct b as [|s t]; [exact I|]. cbn [app]. split; [|exact Cb]. apply (H s t eq_refl). discriminate.
  - destruct Ca as [C1 C2]. cbn [app]. split; [exact C1|]. apply IH; [exact C2|exact Cb|]. intros s t E _. rewrite <- (H s t E) by discriminate. reflexivity.
Qed.
Lemma piece_facts cur g : let l := of_piece conic cur g in
  Forall plain_stroke l /\ chained l /\ (exists s t, l = s :: t /\ stroke_from s = cur) /\ forall d, stroke_to (last l d) = piece_to g.
Proof.
  destruct g as [q|a q|a q w|a b q]; cbn.
  1,2,4: split; [repeat constructor|]; split; [exact I|]; split; [eexists _, _; split; reflexivity|reflexivity].
  destruct (conic cur a q w) as [[[[q0 q1] q2] q3] q4] eqn:E. destruct (Hc _ _ _ _ _ _ _ _ _ E) as [-> ->].
  split; [repeat constructor|]. split; [cbn; auto|]. split; [eexists _, _; split; reflexivity|reflexivity].
Qed.
Lemma pieces_facts l : forall cur, let m := of_pieces conic cur l in
  Forall plain_stroke m /\ chained m /\ (forall s t, m = s :: t -> stroke_from s = cur) /\ (m = [] <-> l = []) /\
  (l <> [] -> forall d, stroke_to (last m d) = last (map piece_to l) cur).
Proof.
  induction l as [|g l IH]; intros cur; cbn [of_pieces map].
  - split; [constructor|]. split; [exact I|]. split; [discriminate|]. split; [tauto|congruence].
  - destruct (piece_facts cur g) as (P1 & P2 & (s & t & P3 & P4) & P5). destruct (IH (piece_to g)) as (Q1 & Q2 & Q3 & Q4 & Q5).
    split; [now apply Forall_app|]. split.
    { apply (chained_app _ _ (SLine cur cur)); try assumption. intros s' t' E _. rewrite P5. symmetry. eapply Q3. exact E. }
    split; [rewrite P3; cbn; intros s' t' E; injection E as <- _; exact P4|]. split; [rewrite P3; cbn; split; discriminate|].
    intros _ d. rewrite last_cons. destruct l as [|g' l']; [cbn [of_pieces]; rewrite app_nil_r; apply P5|].
    assert (of_pieces conic (piece_to g) (g' :: l') <> []) as N by (intros E; apply Q4 in E; discriminate).
    rewrite last_app_ne by exact N. apply Q5. discriminate.
Qed.

Lemma closing_ne s : s_pieces s = [] -> proper (s_start s) -> sub_strokes conic s = [].
Proof. intros E P. unfold sub_strokes, s_end. rewrite E. cbn. rewrite sk_eqb_refl by assumption. now destruct (s_closed s). Qed.

Lemma sub_facts s : proper_sub conic s -> let m := sub_strokes conic s in
  Forall plain_stroke m /\ chained m /\ (forall x t, m = x :: t -> stroke_from x = s_start s) /\ (m = [] <-> s_pieces s = []) /\
  (s_closed s = true -> forall x t, m = x :: t -> same_place (stroke_to (last t x)) (stroke_from x)).
Proof.
  intros (P1 & P2 & P3) m. destruct (pieces_facts (s_pieces s) (s_start s)) as (Q1 & Q2 & Q3 & Q4 & Q5).
  assert (m = [] <-> s_pieces s = []) as M.
  { split; [|intros E; now apply closing_ne]. unfold m, sub_strokes. intros E. apply app_eq_nil in E as [E _]. now apply Q4. }
  set (cl := if s_closed s then if sk_eqb (s_end s) (s_start s) then [] else [SLine (s_end s) (s_start s)] else []).
  assert (m = of_pieces conic (s_start s) (s_pieces s) ++ cl) as Em by reflexivity.
  assert (Forall plain_stroke cl /\ chained cl) as [K1 K2].
  { unfold cl. destruct (s_closed s); [destruct (sk_eqb _ _)|]; split; repeat constructor. }
  split; [rewrite Em; now apply Forall_app|]. split.
  { rewrite Em. apply (chained_app _ _ (SLine (s_start s) (s_start s))); try assumption. intros x t E N. rewrite Q5 by (intros E0; apply N; now apply Q4).
    unfold cl in E. destruct (s_closed s); [|discriminate]. destruct (sk_eqb _ _); [discriminate|]. injection E as <- _. reflexivity. }
  assert (forall x t, m = x :: t -> stroke_from x = s_start s) as F.
  { intros x t E. rewrite Em in E. destruct (of_pieces conic (s_start s) (s_pieces s)) as [|y r] eqn:Eo.
    - assert (s_pieces s = []) as E0 by now apply Q4. apply M in E0. rewrite Em in E0. cbn in E0, E. rewrite E0 in E. discriminate.
    - cbn in E. injection E as <- _. eapply Q3. reflexivity. }
  split; [exact F|]. split; [exact M|].
  intros Hcl x t E. rewrite (F _ _ E). assert (s_pieces s <> []) as N by (intros E0; apply M in E0; congruence).
  replace (last t x) with (last m x) by (rewrite E; apply last_cons). rewrite Em. unfold cl. rewrite Hcl. destruct (sk_eqb (s_end s) (s_start s)) eqn:Eq.
  - rewrite app_nil_r. rewrite Q5 by exact N. unfold sk_eqb in Eq. apply andb_true_iff in Eq. exact Eq.
  - rewrite last_last. now apply same_refl.
Qed.

(** What comes out for one subpath. *)
Definition good (s : subpath) (c : contour PD) : Prop :=
  (exists p t, c = p :: t /\ (pptype p = Move <-> s_closed s = false)) /\
  (~ line_then_curve conic s -> Forall2 same_curve (sub_strokes conic s) (strokes c)) /\
  (line_then_curve conic s -> exists l p a b q, sub_strokes conic s = l ++ [SCubic p a b q] /\
     Forall2 same_curve (l ++ [SLine p q]) (strokes c)).

Lemma ready_good dbg s : proper_sub conic s -> ready conic s <> [] ->
  (lone_loop conic s /\ from_skcontour (PD := PD) dbg (ready conic s) = Panic) \/
  (~ lone_loop conic s /\ exists c, from_skcontour (PD := PD) dbg (ready conic s) = Ok c /\ good s c).
Proof.
  intros P N. destruct (sub_facts s P) as (F1 & F2 & F3 & F4 & F5). destruct P as (P1 & P2 & P3). unfold ready in *. unfold lone_loop.
  destruct (s_closed s) eqn:Ec.
  - destruct (sub_strokes conic s) as [|x t] eqn:Em; [cbn in N; congruence|]. inversion F1 as [|? ? G1 G2]; subst.
    specialize (F5 eq_refl _ _ eq_refl). rewrite (from_closed dbg x t G1 G2).
    assert (x :: t <> [SLine (s_start s) (s_start s)] -> True) as _ by auto.
    assert ((exists p a b q, x :: t = [SCubic p a b q]) \/ (~ (exists p a b q, x :: t = [SCubic p a b q]) /\
      match x, t with SCubic _ _ _ _, [] => Panic | _, _ => Ok (head_of x (last t x) :: pts_of (Some x) t) end = Ok (head_of (PD := PD) x (last t x) :: pts_of (Some x) t))) as [(p & a & b & q & E)|[L E]].
    { destruct x as [p q| |p a b q]; try contradiction.
      - right. split; [intros (? & ? & ? & ? & E); discriminate|reflexivity].
      - destruct t; [left; eauto 6|]. right. split; [intros (? & ? & ? & ? & E); discriminate|reflexivity]. }
    + left. split; [split; [reflexivity|eauto 6]|]. injection E as -> ->. reflexivity.
    + right. split; [intros [_ L']; auto|]. eexists. split; [exact E|]. pose proof (closed_drawn (PD := PD) x t F2 P3 F1 F5) as D.
      assert (forall p q l, x :: t = SLine p q :: l -> forall l' p' a b q', x :: t = SLine p q :: l' ++ [SCubic p' a b q'] -> x = SLine p q /\ last t x = SCubic p' a b q') as LL.
      { intros p q l _ l' p' a b q' E'. injection E' as -> ->. split; [reflexivity|]. now rewrite last_last. }
      split; [|split].
      * eexists _, _. split; [reflexivity|]. rewrite Ec. destruct x; cbn; split; discriminate.
      * intros NL. rewrite Em.
        replace (removelast (x :: t) ++ [last_drawn x (last t x)]) with (x :: t) in D; [exact D|].
        rewrite <- (removelast_last x t) at 1. f_equal. f_equal. unfold last_drawn. destruct x as [p q| |]; try (destruct (last t _); reflexivity). destruct (last t (SLine p q)) as [| |p' a b q'] eqn:El; try reflexivity.
        exfalso. apply NL. split; [exact Ec|]. rewrite Em. destruct t as [|y t]; [discriminate|].
        destruct (exists_last (l := y :: t)) as (l' & z & Ez); [discriminate|]. rewrite Ez in El. rewrite last_last in El. subst z. exists p, q, l', p', a, b, q'. now rewrite Ez.
      * intros (_ & p & q & l & p' & a & b & q' & E'). rewrite Em in E'. destruct (LL p q t) with (l' := l) (p' := p') (a := a) (b := b) (q' := q') as [Ex El]; [congruence|exact E'|].
        exists (SLine p q :: l), p', a, b, q'. rewrite Em. split; [exact E'|]. subst x. rewrite El in D |- *. cbn [last_drawn] in D.
        injection E' as ->. change (SLine p q :: l ++ [SCubic p' a b q']) with ((SLine p q :: l) ++ [SCubic p' a b q']) in D. rewrite removelast_last_app in D || rewrite removelast_app in D by discriminate.
        cbn [removelast] in D. rewrite app_nil_r in D. exact D.
  - right. split; [intros [E _]; discriminate|]. rewrite (from_open dbg (s_start s) (sub_strokes conic s) F1 F3 P1). eexists. split; [reflexivity|].
    assert (~ line_then_curve conic s) as NL by (intros [E _]; congruence). unfold good. split; [|split; [|contradiction]].
    + destruct (sub_strokes conic s); eexists _, _; (split; [reflexivity|]); rewrite Ec; cbn; tauto.
    + intros _. destruct (sub_strokes conic s) as [|x t] eqn:Em; [constructor|]. apply open_drawn; try assumption. eapply F3. reflexivity.
Qed.

Lemma kept_in l s : In s (kept_subs l) -> In s l.
Proof.
  induction l as [|x t IH]; cbn [kept_subs]; [tauto|]. destruct (s_pieces x), (s_closed x), t; cbn; intuition.
Qed.
Lemma in_kept l s : In s l -> s_pieces s <> [] -> In s (kept_subs l).
Proof.
  induction l as [|x t IH]; intros H N; [destruct H|]. cbn [kept_subs]. destruct H as [->|H].
  - destruct (s_pieces s); [congruence|]. now left.
  - specialize (IH H N). destruct (s_pieces x), (s_closed x), t; cbn; auto.
Qed.

Lemma from_all dbg subs : Forall (proper_sub conic) subs ->
  (Exists (lone_loop conic) subs /\ from_skia_path (PD := PD) conic dbg (concat (map verbs subs)) = Panic) \/
  (~ Exists (lone_loop conic) subs /\ exists o, from_skia_path (PD := PD) conic dbg (concat (map verbs subs)) = Ok o /\
     Forall2 good (kept_subs subs) o).
Proof.
  intros P. unfold from_skia_path. rewrite split_path.
  2:{ eapply Forall_impl; [|exact P]. intros s (P1 & P2 & _). auto. }
  cbn [bind]. rewrite convert_all. cbn [bind]. unfold from_skoutline.
  assert (Forall (proper_sub conic) (kept_subs subs)) as PK.
  { apply Forall_forall. intros s H. apply kept_in in H. revert s H. now apply Forall_forall. }
  pose proof (ready_nonempty conic subs) as RN.
  assert (Exists (lone_loop conic) subs <-> Exists (lone_loop conic) (kept_subs subs)) as EX.
  { rewrite !Exists_exists. split; intros (s & H & L); exists s; (split; [|exact L]).
    - apply in_kept; [exact H|]. intros E. destruct L as (_ & p & a & b & q & E2). rewrite Forall_forall in P. destruct (P s H) as (P1 & _).
      rewrite (closing_ne s E P1) in E2. discriminate.
    - now apply kept_in. }
  rewrite EX. clear EX P. induction PK as [|s l Ps PK IH]; cbn [map mapM].
  - right. split; [intros H; inversion H|]. exists []. split; [reflexivity|constructor].
  - inversion_clear RN as [|? ? R1 R2]. specialize (IH R2). destruct (ready_good dbg s Ps R1) as [[L E]|(L & c & E & G)]; rewrite E; cbn [bind].
    + left. split; [now constructor|reflexivity].
    + destruct IH as [[L2 E2]|(L2 & o & E2 & G2)]; rewrite E2; cbn [bind].
      * left. split; [now constructor 2|reflexivity].
      * right. split; [intros H; inversion H; auto|]. exists (c :: o). split; [reflexivity|now constructor].
Qed.
End Whole.

(** * There and back *)
Section Round.
Context (conic : skpoint -> skpoint -> skpoint -> f32 -> skpoint * skpoint * skpoint * skpoint * skpoint) (Hc : keeps_ends conic).
Context {PD : Type}.
Notation idf := (fun x : f32 => x).

Lemma of_pieces_plain l : Forall (fun g => match g with PConic _ _ _ => False | _ => True end) l ->
  forall cur, of_pieces conic cur l = map cubified (plain cur l).
Proof.
  induction 1 as [|g l Hg H IH]; intros cur; [reflexivity|]. cbn [of_pieces]. rewrite IH. destruct g; try contradiction; reflexivity.
Qed.
Lemma as_cubic_cubified s : as_cubic (cubified s) = as_cubic s.
Proof. destruct s; reflexivity. Qed.
Lemma same_cubified l l' : Forall2 same_curve (map cubified l) l' -> Forall2 same_curve l l'.
Proof.
  revert l'; induction l as [|s l IH]; intros l' H; inversion H as [|? y ? t H1 H2]; subst; constructor; auto.
  unfold same_curve in *. now rewrite as_cubic_cubified in H1.
Qed.
Lemma proper_ends s : proper_stroke (cubified s) -> proper (stroke_from s) /\ proper (stroke_to s).
Proof. destruct s; cbn; tauto. Qed.
Lemma strokes_ne (p q : point PD) t : strokes (p :: q :: t) <> [].
Proof. unfold strokes, segments. destruct (pptype p); discriminate. Qed.
Lemma plain_facts l : Forall (fun g => match g with PConic _ _ _ => False | _ => True end) l -> forall cur,
  (plain cur l = [] <-> l = []) /\ (forall s t, plain cur l = s :: t -> stroke_from s = cur) /\
  (l <> [] -> forall d, stroke_to (last (plain cur l) d) = last (map piece_to l) cur).
Proof.
  induction 1 as [|g l Hg H IH]; intros cur; [split; [tauto|]; split; [discriminate|congruence]|].
  destruct (IH (piece_to g)) as (I1 & I2 & I3).
  assert (exists s, plain cur (g :: l) = s :: plain (piece_to g) l /\ stroke_from s = cur /\ stroke_to s = piece_to g) as (s & -> & E1 & E2) by (destruct g; try contradiction; eexists; repeat split).
  split; [split; discriminate|]. split; [intros s' t' E; injection E as <- _; exact E1|]. intros _ d. cbn [map]. rewrite !last_cons.
  destruct l as [|g' l']; [exact E2|]. apply I3. discriminate.
Qed.

Lemma round dbg (c : contour PD) s : 2 <= length c -> proper_contour c -> ~ idle_end c ->
  to_skia_path idf idf c = Some (verbs s) -> no_conics s -> draws s (strokes c) -> (s_closed s = true -> closed_contour c) ->
  (lone_loop conic s /\ from_skia_path (PD := PD) conic dbg (verbs s) = Panic) \/
  (~ lone_loop conic s /\ sub_strokes conic s = map cubified (strokes c) /\
   exists c', from_skia_path (PD := PD) conic dbg (verbs s) = Ok [c'] /\ good conic s c').
Proof.
  intros Hl Hp Hi Ht Hn Hd Hcc.
  assert (strokes c <> []) as Ns by (destruct c as [|p [|q t]]; cbn in Hl; try lia; apply strokes_ne).
  destruct (plain_facts _ Hn (s_start s)) as (F1 & F2 & F3). fold (s_end s) in F3.
  assert (forall x, In x (strokes c) -> proper (stroke_from x) /\ proper (stroke_to x)) as PE.
  { intros x Hx. apply proper_ends. unfold proper_contour in Hp. rewrite Forall_map in Hp. rewrite Forall_forall in Hp. now apply Hp. }
  assert (proper (s_start s) /\ proper (s_end s) /\ sub_strokes conic s = map cubified (strokes c)) as (P1 & P2 & E).
  { unfold sub_strokes. rewrite (of_pieces_plain _ Hn). unfold draws in Hd.
    assert (forall x t, plain (s_start s) (s_pieces s) = x :: t -> (forall y, In y (x :: t) -> In y (strokes c)) -> proper (s_start s) /\ proper (s_end s)) as G.
    { intros x t E I. split.
      - rewrite <- (F2 _ _ E). apply PE. apply I. now left.
      - rewrite <- (F3 ltac:(intros E0; apply F1 in E0; congruence) x). apply PE, I. rewrite E. rewrite last_cons. apply last_in. }
    destruct (s_closed s); [specialize (Hcc eq_refl)|].
    - destruct Hd as [[E1 E2]|E2].
      + destruct (plain (s_start s) (s_pieces s)) as [|x t] eqn:Ep; [congruence|]. rewrite E2 in *. destruct (G x t eq_refl ltac:(auto)) as [G1 G2]. split; [exact G1|]. split; [exact G2|].
        rewrite E1, (sk_eqb_refl _ G1). now rewrite app_nil_r.
      + assert (proper (s_end s) /\ proper (s_start s)) as [G1 G2] by (apply (PE (SLine (s_end s) (s_start s))); rewrite E2; apply in_or_app; right; now left).
        split; [exact G2|]. split; [exact G1|]. rewrite E2, map_app. destruct (sk_eqb (s_end s) (s_start s)) eqn:Eq; [|reflexivity].
        exfalso. apply Hi. split; [exact Hcc|]. exists (plain (s_start s) (s_pieces s)), (s_end s), (s_start s). split; [exact E2|]. apply andb_true_iff in Eq. exact Eq.
    - destruct (plain (s_start s) (s_pieces s)) as [|x t] eqn:Ep; [congruence|]. rewrite Hd in *. destruct (G x t eq_refl ltac:(auto)) as [G1 G2]. split; [exact G1|]. split; [exact G2|]. now rewrite app_nil_r. }
  assert (proper_sub conic s) as Ps by (split; [exact P1|split; [exact P2|rewrite E; exact Hp]]).
  assert (s_pieces s <> []) as Np.
  { intros E0. pose proof (closing_ne conic s E0 P1) as E1. rewrite E in E1. destruct (strokes c); [congruence|discriminate]. }
  assert (kept_subs [s] = [s]) as K by (cbn; destruct (s_pieces s); [congruence|reflexivity]).
  assert (verbs s = concat (map verbs [s])) as -> by (cbn [map concat]; now rewrite app_nil_r).
  destruct (from_all conic Hc (PD := PD) dbg [s]) as [[L EL]|(L & o & Eo & G)]; [constructor; [exact Ps|constructor]| |].
  - left. split; [|exact EL]. inversion L as [? ? H|? ? H]; [exact H|inversion H].
  - right. split; [intros H; apply L; now constructor|]. split; [exact E|]. rewrite K in G. inversion G as [|? c' ? o' G1 G2]; subst. inversion G2; subst. eauto.
Qed.
Lemma first_last_strokes (p q : point PD) t : pptype p <> Move ->
  exists l, strokes (p :: q :: t) = sk_look idf idf (seg_between p q) :: l ++ [sk_look idf idf (seg_between (last t q) p)].
Proof.
  intros H. unfold strokes, segments.
  assert (forall a b : list segment, match pptype p with Move => a | _ => b end = b) as -> by (intros; destruct (pptype p); congruence).
  cbn [closed_segments app segs_from map]. rewrite segs_from_app, map_app. eexists. reflexivity.
Qed.
Lemma look_line s : (exists p q, sk_look idf idf s = SLine p q) <-> sg_kind s = Line.
Proof. unfold sk_look. destruct (sg_kind s); split; intros H; try discriminate; try (destruct H as (? & ? & H); discriminate); eauto. Qed.
Lemma app_last_inj {A} (l l' : list A) x y : l ++ [x] = l' ++ [y] -> x = y.
Proof. intros H. now apply app_inj_tail in H. Qed.
Lemma bad_iff (c : contour PD) s : drawable_contour c -> 2 <= length c -> (s_closed s = true <-> forall p t, c = p :: t -> pptype p <> Move) ->
  sub_strokes conic s = map cubified (strokes c) ->
  (line_then_curve conic s <-> line_first_curve_last c) /\ ~ lone_loop conic s.
Proof.
  intros (p & t & -> & Hp & Ht) Hl Hcl E. destruct t as [|q t]; [cbn in Hl; lia|]. inversion Ht as [|? ? Hq Ht']; subst.
  assert (s_closed s = true <-> pptype p <> Move) as Hcl' by (rewrite Hcl; split; [intros H; eapply H; reflexivity|intros H p' t' E'; injection E' as -> _; exact H]). clear Hcl.
  assert (pptype p <> Move -> exists l, map cubified (strokes (p :: q :: t)) =
     cubified (sk_look idf idf (seg_between p q)) :: l ++ [cubified (sk_look idf idf (seg_between (last t q) p))]) as FL.
  { intros H. destruct (first_last_strokes p q t H) as (l & ->). cbn [map]. rewrite map_app. eexists. reflexivity. }
  unfold line_then_curve, lone_loop, line_first_curve_last. rewrite E. split; [split|].
  - intros (Hc1 & a & b & l & a' & x & y & b' & E'). apply Hcl' in Hc1. destruct (FL Hc1) as (m & Em). rewrite Em in E'. injection E' as E1 E2.
    apply app_last_inj in E2. exists p, q, t. split; [reflexivity|]. split.
    + apply (look_line (seg_between p q)). destruct (sk_look _ _ (seg_between p q)); try discriminate. eauto.
    + destruct Hp as [Hp|[Hp|[Hp|Hp]]]; auto; [congruence|]. exfalso.
      destruct (proj2 (look_line (seg_between (last t q) p))) as (u & v & Eu); [exact Hp|]. rewrite Eu in E2. discriminate.
  - intros (p' & q' & t' & E' & Hq' & Hp'). injection E' as <- <- <-. assert (pptype p <> Move) as Nm by (destruct Hp' as [->| ->]; discriminate).
    split; [now apply Hcl'|]. destruct (FL Nm) as (m & ->).
    destruct (proj2 (look_line (seg_between p q)) Hq') as (u & v & Eu). rewrite Eu.
    assert (exists a x y b, cubified (sk_look idf idf (seg_between (last t q) p)) = SCubic a x y b) as (a & x & y & b & ->).
    { unfold sk_look. cbn [seg_between sg_kind]. destruct Hp' as [->| ->]; do 4 eexists; reflexivity. }
    exists u, v, m, a, x, y, b. reflexivity.
  - intros (Hc1 & a & x & y & b & E'). apply Hcl' in Hc1. destruct (FL Hc1) as (m & Em). rewrite Em in E'. destruct m; discriminate.
Qed.

(** Without conditions on the end. *)
Lemma last_line_type (p q : point PD) t l a b : pptype p <> Move -> strokes (p :: t) = l ++ [SLine a b] -> pptype p = Line.
Proof.
  intros H E. unfold strokes, segments in E.
  assert (forall a b : list segment, match pptype p with Move => a | _ => b end = b) as R by (intros; destruct (pptype p); congruence).
  rewrite R in E. cbn [closed_segments] in E. rewrite segs_from_app, map_app in E. cbn [map] in E. apply app_last_inj in E.
  apply (look_line (seg_between (last t p) p)). eauto.
Qed.
Lemma busy_exists (c : contour PD) : exists l, busy_strokes c l.
Proof.
  destruct c as [|p t].
  { exists []. right. split; [|reflexivity]. intros (_ & l & a & b & E & _). destruct l; discriminate. }
  assert (pptype p = Move \/ pptype p <> Move) as [Hm|Hm] by (destruct (pptype p); (left; reflexivity) || (right; discriminate)).
  { exists (strokes (p :: t)). right. split; [|reflexivity]. intros (H & _). exact (H p t eq_refl Hm). }
  destruct (strokes (p :: t)) as [|x r] eqn:E0.
  { exists []. right. split; [|now rewrite E0]. intros (_ & l & a & b & E & _). rewrite E0 in E. destruct l; discriminate. }
  destruct (exists_last (l := strokes (p :: t))) as (l & y & E); [congruence|].
  assert (closed_contour (p :: t)) as Hc1 by (intros p' t' E'; injection E' as <- _; exact Hm).
  destruct y as [a b| |].
  - destruct (sk_eqb a b) eqn:Eq.
    + exists l. left. apply andb_true_iff in Eq. split; [|eauto]. split; [exact Hc1|]. exists l, a, b. split; [exact E|exact Eq].
    + exists (strokes (p :: t)). right. split; [|reflexivity]. intros (_ & l' & a' & b' & E' & [S1 S2]). rewrite E in E'. apply app_last_inj in E'. injection E' as <- <-.
      unfold sk_eqb in Eq. rewrite S1, S2 in Eq. discriminate.
  - exists (strokes (p :: t)). right. split; [|reflexivity]. intros (_ & l' & a' & b' & E' & _). rewrite E in E'. apply app_last_inj in E'. discriminate.
  - exists (strokes (p :: t)). right. split; [|reflexivity]. intros (_ & l' & a' & b' & E' & _). rewrite E in E'. apply app_last_inj in E'. discriminate.
Qed.
Lemma busy_path (c : contour PD) l : drawable_contour c -> proper_contour c -> strokes c <> [] -> busy_strokes c l ->
  exists s, to_skia_path idf idf c = Some (verbs s) /\ proper_sub conic s /\ (s_closed s = true <-> closed_contour c) /\ sub_strokes conic s = map cubified l.
Proof.
  intros (p & t & -> & Hp & Ht) Hpr Ns HB. destruct (to_path idf idf p t Hp Ht) as (s & E1 & E2 & E3 & Hn & Hd & HL). exists s. split; [exact E1|].
  assert (s_closed s = true <-> closed_contour (p :: t)) as Hcl by (rewrite E3; split; [intros H p' t' E'; injection E' as <- _; exact H|intros H; exact (H p t eq_refl)]).
  fold (strokes (p :: t)) in Hd, HL.
  destruct (plain_facts _ Hn (s_start s)) as (F1 & F2 & F3). fold (s_end s) in F3.
  assert (forall x, In x (strokes (p :: t)) -> proper (stroke_from x) /\ proper (stroke_to x)) as PE.
  { intros x Hx. apply proper_ends. unfold proper_contour in Hpr. rewrite Forall_map in Hpr. rewrite Forall_forall in Hpr. now apply Hpr. }
  assert (forall x t0, plain (s_start s) (s_pieces s) = x :: t0 -> (forall y, In y (x :: t0) -> In y (strokes (p :: t))) -> proper (s_start s) /\ proper (s_end s)) as G.
  { intros x t0 E I. split.
    - rewrite <- (F2 _ _ E). apply PE. apply I. now left.
    - rewrite <- (F3 ltac:(intros E0; apply F1 in E0; congruence) x). apply PE, I. rewrite E. rewrite last_cons. apply last_in. }
  assert (proper (s_start s) /\ proper (s_end s)) as [P1 P2].
  { unfold draws in Hd. destruct (s_closed s).
    - destruct Hd as [[_ E]|E].
      + destruct (plain (s_start s) (s_pieces s)) as [|x r] eqn:Ep; [congruence|]. apply (G x r eq_refl). rewrite E. auto.
      + assert (proper (s_end s) /\ proper (s_start s)) by (apply (PE (SLine (s_end s) (s_start s))); rewrite E; apply in_or_app; right; now left). tauto.
    - destruct (plain (s_start s) (s_pieces s)) as [|x r] eqn:Ep; [congruence|]. apply (G x r eq_refl). rewrite Hd. auto. }
  assert (sub_strokes conic s = map cubified l) as Es.
  { unfold sub_strokes. rewrite (of_pieces_plain _ Hn). unfold draws in Hd.
    destruct (s_closed s) eqn:Ec.
    - pose proof (proj1 Hcl eq_refl) as Hc1. pose proof (Hc1 p t eq_refl) as Nm.
      assert (pptype p = Line \/ pptype p <> Line) as [El|El] by (destruct (pptype p); (left; reflexivity) || (right; discriminate)).
      + specialize (HL El). destruct (sk_eqb (s_end s) (s_start s)) eqn:Eq.
        * rewrite app_nil_r. f_equal. destruct HB as [(_ & a & b & E)|[N _]].
          -- rewrite HL in E. now apply app_inj_tail in E as [-> _].
          -- exfalso. apply N. split; [exact Hc1|]. do 3 eexists. split; [exact HL|]. apply andb_true_iff in Eq. exact Eq.
        * destruct HB as [((_ & l' & a & b & E & [S1 S2]) & _)|[_ ->]].
          -- rewrite HL in E. apply app_last_inj in E. injection E as <- <-. unfold sk_eqb in Eq. rewrite S1, S2 in Eq. discriminate.
          -- rewrite HL, map_app. reflexivity.
      + assert (forall l a b, strokes (p :: t) <> l ++ [SLine a b]) as NL by (intros l0 a b E; apply El; eapply last_line_type; [exact p|exact Nm|exact E]).
        destruct Hd as [[E4 E5]|E5]; [|exfalso; eapply NL; exact E5]. rewrite E4, (sk_eqb_refl _ P1), app_nil_r. f_equal.
        destruct HB as [((_ & l' & a & b & E & _) & _)|[_ ->]]; [exfalso; eapply NL; exact E|]. now rewrite E5.
    - rewrite app_nil_r. f_equal. destruct HB as [((Hc1 & _) & _)|[_ ->]]; [apply Hcl in Hc1; discriminate|]. now rewrite Hd. }
  split; [|split; [exact Hcl|exact Es]]. split; [exact P1|]. split; [exact P2|]. rewrite Es. unfold proper_contour in Hpr.
  destruct HB as [(_ & a & b & E)|[_ ->]]; [|exact Hpr]. rewrite E, map_app in Hpr. now apply Forall_app in Hpr as [Hpr _].
Qed.
End Round.
