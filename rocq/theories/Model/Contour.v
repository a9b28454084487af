(** Index arithmetic on contours and the smoothness check.  src/outline/contour.rs. *)
Require Import Coq.Lists.List Coq.Arith.Arith Coq.Bool.Bool Coq.ZArith.ZArith Coq.Floats.SpecFloat.
Require Import Verif.Model.Base Verif.Model.Float Verif.Model.Num Verif.Model.Point.
Import ListNotations.

(** src/outline/contour.rs L14-17 *)
Inductive cend := Head | Tail.

Section Generic.
Context {T : Type}.
Implicit Types v : list T.

(** src/outline/contour.rs L68-77 *)
Definition idx_sane v (i : nat) : res unit :=
  if length v <=? i then Err (EIdxOutOfBounds i (length v))
  else if length v =? 1 then Err ELenOne
  else if length v =? 0 then Err ELenZero
  else Ok tt.

(** src/outline/contour.rs L79-87 *)
Definition prev_next v (i : nat) : res (nat * nat) :=
  let* _ := idx_sane v i in
  let prev := if i =? 0 then length v - 1 else i - 1 in
  let next := if i =? length v - 1 then 0 else i + 1 in
  Ok (prev, next).

(** src/outline/contour.rs L30-37 *)
Definition prev v i : res nat := let* pn := prev_next v i in Ok (fst pn).
(** `PrevNext::next`, src/outline/contour.rs L30-37. *)
Definition next v i : res nat := let* pn := prev_next v i in Ok (snd pn).

(** src/outline/contour.rs L89-98 *)
Definition idx_which_end v (i : nat) : res (option cend) :=
  let* _ := idx_sane v i in
  Ok (if i =? 0 then Some Head
      else if i =? length v - 1 then Some Tail
      else None).

(** src/outline/contour.rs L39-42 *)
Definition idx_at_start_or_end v i : res bool :=
  let* e := idx_which_end v i in
  Ok (match e with Some _ => true | None => false end).

End Generic.

Section Contour.
Context {PD : Type}.
(** `Contour<PD>`, src/outline.rs L25-26. *)
Definition contour := list (point PD).
(** `Outline<PD>`, src/outline.rs L25-26. *)
Definition outline := list contour.
Implicit Types c : contour.

(** src/outline/contour.rs L109-116 *)
Definition is_open c : bool :=
  match c with
  | [] => true
  | [_] => true
  | p :: _ => ptype_eqb (pptype p) Move
  end.
(** src/outline/contour.rs L102-107. *)
Definition is_closed c : bool := negb (is_open c).

(** src/outline/contour.rs L121-134 *)
Definition contour_prev_next c (i : nat) : res (option nat * option nat) :=
  let* pn := prev_next c i in
  let '(prev_i, next_i) := pn in
  let* at_end := (if is_open c then idx_at_start_or_end c i else Ok false) in
  if (at_end : bool) then
    let* e := idx_which_end c i in
    match e with
    | Some Head => Ok (None, Some next_i)
    | Some Tail => Ok (Some prev_i, None)
    | None => Panic
    end
  else
    let* pr := prev c i in
    let* nx := next c i in
    Ok (Some pr, Some nx).

(** src/outline/contour.rs L135-147 *)
Definition handles_at c (o : option nat) : res (handle * handle) :=
  match o with
  | Some i => let* p := idx c i in Ok (pa p, pb p)
  | None => Ok (Colocated, Colocated)
  end.
(** src/outline/contour.rs L135-147. *)
Definition contour_prev_next_handles c (i : nat)
  : res ((handle * handle) * (handle * handle)) :=
  let* pn := contour_prev_next c i in
  let* pr := handles_at c (fst pn) in
  let* nx := handles_at c (snd pn) in
  Ok (pr, nx).

(** kurbo (external crate): `Line::new(p1, p2).nearest(p0).distance_sq.sqrt()`, with the
    published definition of kurbo 0.9: the squared distance from a point to a segment.
    src/outline/contour.rs L190-192. *)
Definition seg_distance (p1x p1y p2x p2y x y : f64) : f64 :=
  let dx := sub64 p2x p1x in
  let dy := sub64 p2y p1y in
  let vx := sub64 x p1x in
  let vy := sub64 y p1y in
  let dot ax ay bx by_ := add64 (mul64 ax bx) (mul64 ay by_) in
  let dotp := dot dx dy vx vy in
  let d_squared := dot dx dy dx dy in
  let hyp2 ax ay := dot ax ay ax ay in
  let dist_sq :=
    if fle dotp pos_zero then hyp2 vx vy
    else if fle d_squared dotp then hyp2 (sub64 x p2x) (sub64 y p2y)
    else
      let t := div64 dotp d_squared in
      let lerp a b := add64 a (mul64 t (sub64 b a)) in
      hyp2 (sub64 x (lerp p1x p2x)) (sub64 y (lerp p1y p2y)) in
  sqrt64 dist_sq.

(** src/outline/contour.rs L160-197, for a given distance function (kurbo). *)
Definition is_point_smooth_within
  (dist : f64 -> f64 -> f64 -> f64 -> f64 -> f64 -> f64)
  c (i : nat) (within : f32) : res bool :=
  let* e := idx_which_end c i in
  let* pn := contour_prev_next c i in
  let* p := idx c i in
  let* ab :=
    match e with
    | None => Ok (Some (pa p, pb p))
    | Some Head =>
        match fst pn with
        | Some pr => let* q := idx c pr in Ok (Some (pa p, pb q))
        | None => Ok None
        end
    | Some Tail =>
        match snd pn with
        | Some nx => let* q := idx c nx in Ok (Some (pa q, pb p))
        | None => Ok None
        end
    end in
  match ab with
  | Some (At x1 y1, At x2 y2) =>
      Ok (fle (dist (f64_of_f32 x1) (f64_of_f32 y1) (f64_of_f32 x2) (f64_of_f32 y2)
                    (f64_of_f32 (px p)) (f64_of_f32 (py p)))
              (f64_of_f32 within))
  | _ => Ok false
  end.

(** src/outline/contour.rs L153-155: the default tolerance, `0.01` as f32. *)
Definition smooth_tolerance : f32 := S754_finite false 10737418 (-30).

(** src/outline/contour.rs L199-203 *)
Definition check_smooth dist c (i : nat) : res (contour * bool) :=
  let* b := is_point_smooth_within dist c i smooth_tolerance in
  let* p := idx c i in
  Ok (set_nth c i (with_smooth p b), b).

End Contour.
Arguments contour PD : clear implicits.
Arguments outline PD : clear implicits.
