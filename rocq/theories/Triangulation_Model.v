(** Model of /repo/src/theia/sfm/triangulation/triangulation.cc (without IsTriangulatedPointInFrontOfCameras, which is
    in Epipolar_Model.v).

    Simplification: doubles are modelled by real numbers (no rounding).  A result that is not a finite number is
    [None].  The singular value decomposition and the eigenvalue solver are arguments (LeastSquares_Model.v). *)
From stdpp Require Import gmap strings.
From Coq Require Import Reals.
From Verif Require Import Base Camera_Model RotationGraph_Model Alignment_Model Epipolar_Model LeastSquares_Model.
Local Open Scope R_scope.

Definition list4 (X : vec4) : list R := [x4 X; y4 X; z4 X; w4 X].
(** The first four entries of a vector, .head(4). *)
Definition head4 (l : list R) : vec4 :=
  match l with x :: y :: z :: w :: _ => V4 x y z w | _ => V4 0 0 0 0 end.
Definition row4 (P : mat34) (i : nat) : list R := let '(r, t) := prow P i in [x3 r; y3 r; z3 r; t].

(** triangulation.cc:160-175, TriangulateDLT. *)
Definition dlt_rows (P : mat34) (p : vec2) : list (list R) :=
  [ladd (lscale (x2 p) (row4 P 2)) (lscale (-1) (row4 P 0)); ladd (lscale (y2 p) (row4 P 2)) (lscale (-1) (row4 P 1))].
Definition triangulate_dlt (smallest : nat -> list (list R) -> list R) (P1 P2 : mat34) (p1 p2 : vec2) : vec4 :=
  head4 (smallest 4%nat (dlt_rows P1 p1 ++ dlt_rows P2 p2)).

(** triangulation.cc:66-105, FindOptimalImagePoints.  [None] if the argument of the square root is negative or a divisor
    is zero. *)
Definition dot2 (a b : vec2) : R := x2 a * x2 b + y2 a * y2 b.
Definition sub2 (a b : vec2) : vec2 := V2 (x2 a - x2 b) (y2 a - y2 b).
Definition scale2 (k : R) (a : vec2) : vec2 := V2 (k * x2 a) (k * y2 a).
(** Product of the top left 2x2 corner of a matrix and a vector. *)
Definition corner_apply (M : mat3) (v : vec2) : vec2 :=
  V2 (x3 (row0 M) * x2 v + y3 (row0 M) * y2 v) (x3 (row1 M) * x2 v + y3 (row1 M) * y2 v).
Definition head2 (v : vec3) : vec2 := V2 (x3 v) (y3 v).
Definition find_optimal_points (E : mat3) (p1 p2 : vec2) : option (vec2 * vec2) :=
  let line1 := head2 (mapply E (homog p2)) in
  let line2 := head2 (mapply (mtrans E) (homog p1)) in
  let a := dot2 line1 (corner_apply E line2) in
  let b := (dot2 line1 line1 + dot2 line2 line2) / 2 in
  let c := dot (homog p1) (mapply E (homog p2)) in
  if Rlt_dec (b * b - a * c) 0 then None
  else
    let d := sqrt (b * b - a * c) in
    if Req_EM_T (b + d) 0 then None
    else
      let lambda := c / (b + d) in
      let line1 := sub2 line1 (corner_apply E (scale2 lambda line1)) in
      let line2 := sub2 line2 (corner_apply (mtrans E) (scale2 lambda line2)) in
      let n := dot2 line1 line1 + dot2 line2 line2 in
      if Req_EM_T n 0 then None
      else
        let lambda := lambda * (2 * d / n) in
        Some (sub2 p1 (scale2 lambda line1), sub2 p2 (scale2 lambda line2)).

(** triangulation.cc:109-127, Triangulate. *)
Definition triangulate (smallest : nat -> list (list R) -> list R) (P1 P2 : mat34) (p1 p2 : vec2) : option vec4 :=
  match find_optimal_points (essential_from_projections P1 P2) p1 p2 with
  | Some (q1, q2) => Some (triangulate_dlt smallest P1 P2 q1 q2)
  | None => None
  end.

(** triangulation.cc:132-158, TriangulateMidpoint: the returned point, or None if it returns false. *)
Definition midpoint_term (d : vec3) (A : sym) : sym := sym_outer (-1) [x3 d; y3 d; z3 d; 0] (sym_shift 1 A).
Definition midpoint_step (acc : sym * list R) (ray : vec3 * vec3) : sym * list R :=
  let '(o, d) := ray in
  (midpoint_term d acc.1, ladd acc.2 (sym_apply (midpoint_term d (sym_zero 4)) [x3 o; y3 o; z3 o; 1])).
Definition triangulate_midpoint (origins directions : list vec3) : outcome (option vec4) :=
  _ ← check (bool_decide (2 <= length origins)%nat);
  _ ← check (bool_decide (length origins = length directions));
  let '(A, b) := foldl midpoint_step (sym_zero 4, replicate 4 0) (zip origins directions) in
  Ok (head4 <$> llt_solve 4 A b).

(** triangulation.cc:178-194, TriangulateNViewSVD.  [mem] is the content of the memory of the design matrix, of which
    only the blocks of lines 186 and 187 are written. *)
Definition svd_rows (mem : nat -> nat -> R) (poses : list mat34) (points : list vec2) : list (list R) :=
  mjoin (imap (fun i (v : mat34 * vec2) =>
    let '(P, p) := v in
    map (fun kh : nat * R => let '(k, h) := kh in
      lscale (-1) (row4 P k) ++ map (fun j => if decide (j = i) then h else mem (3 * i + k)%nat (4 + j)%nat) (seq 0 (length points)))
    [(0%nat, x2 p); (1%nat, y2 p); (2%nat, 1)]) (zip poses points)).
Definition triangulate_nview_svd (smallest : nat -> list (list R) -> list R) (mem : nat -> nat -> R)
    (poses : list mat34) (points : list vec2) : outcome vec4 :=
  _ ← check (bool_decide (length poses = length points));
  Ok (head4 (smallest (4 + length points)%nat (svd_rows mem poses points))).

(** triangulation.cc:197-213, TriangulateNView. *)
Definition cost_rows (P : mat34) (p : vec2) : list (list R) :=
  let n := normalize (homog p) in
  let m := ladd (ladd (lscale (x3 n) (row4 P 0)) (lscale (y3 n) (row4 P 1))) (lscale (z3 n) (row4 P 2)) in
  [ladd (row4 P 0) (lscale (- x3 n) m); ladd (row4 P 1) (lscale (- y3 n) m); ladd (row4 P 2) (lscale (- z3 n) m)].
Definition nview_step (A : sym) (v : mat34 * vec2) : sym := foldl (fun A r => sym_outer 1 r A) A (cost_rows v.1 v.2).
Definition triangulate_nview (eigen : nat -> sym -> list R) (poses : list mat34) (points : list vec2) : outcome vec4 :=
  _ ← check (bool_decide (length poses = length points));
  Ok (head4 (eigen 4%nat (foldl nview_step (sym_zero 4) (zip poses points)))).

(** triangulation.cc:236-250, SufficientTriangulationAngle, and math/util.h DegToRad. *)
Fixpoint angle_loop (cos_min : R) (dirs : list vec3) : bool :=
  match dirs with
  | [] => false
  | d :: dirs => if existsb (fun e => if Rlt_dec (dot d e) cos_min then true else false) dirs then true else angle_loop cos_min dirs
  end.
Definition sufficient_triangulation_angle (dirs : list vec3) (min_degrees : R) : bool :=
  angle_loop (cos (min_degrees * (PI / 180))) dirs.
