(** Model of /repo/src/theia/sfm/visibility_pyramid.cc.

    Coordinates are exact rationals: the rounding of the quotient in AddPoint is not modelled.  Running out of memory
    is not modelled.  The counts in the cells are unbounded. *)
From stdpp Require Import gmap numbers.
From Coq Require Import QArith_base.
From Verif Require Import Base.
Open Scope Z_scope.

(** A square Eigen::MatrixXi: the number of rows and the cells; cells not in the map are 0. *)
Record grid := Grid { g_dim : Z; g_cells : gmap (Z * Z) Z }.

(** visibility_pyramid.h, the data members width_, height_, max_cells_in_dimension_ and pyramid_. *)
Record pyramid := Pyramid { vp_width : Z; vp_height : Z; vp_max_cells : Z; vp_grids : list grid }.

(** 1 << n in int: undefined for negative n and when the result does not fit. *)
Definition shift1 (n : Z) : outcome Z := if decide (0 <= n < 31) then Ok (2 ^ n) else UB.

(** visibility_pyramid.cc:46-64, the constructor. *)
Definition vp_new (width height levels : Z) : outcome pyramid :=
  max_cells ← shift1 levels;
  _ ← check (bool_decide (0 < width));
  _ ← check (bool_decide (0 < height));
  _ ← check (bool_decide (0 < levels));
  Ok (Pyramid width height max_cells ((fun i => Grid (2 ^ (1 + Z.of_nat i)) ∅) <$> seq 0 (Z.to_nat levels))).

(** static_cast<int> of a double: truncation, undefined when the result does not fit. *)
Definition trunc (x : Q) : Z := Z.quot (Qnum x) (Zpos (Qden x)).
Definition to_int (x : Q) : outcome Z :=
  if decide (- 2 ^ 31 <= trunc x < 2 ^ 31) then Ok (trunc x) else UB.

(** /repo/src/theia/math/util.h:58-60, Clamp, of integers. *)
Definition clamp (v lo hi : Z) : Z := Z.max lo (Z.min v hi).

(** visibility_pyramid.cc:70-77, one of the two grid_cell values. *)
Definition finest_cell (max_cells size : Z) (x : Q) : outcome Z :=
  v ← to_int (inject_Z max_cells * x / inject_Z size);
  Ok (clamp v 0 (max_cells - 1)).

(** pyramid_[i](x, y) += 1: an access outside the matrix is undefined. *)
Definition grid_incr (g : grid) (x y : Z) : outcome grid :=
  if decide (0 <= x < g_dim g /\ 0 <= y < g_dim g)
  then Ok (Grid (g_dim g) (<[(x, y) := default 0 (g_cells g !! (x, y)) + 1]> (g_cells g)))
  else UB.

(** visibility_pyramid.cc:81-89, the loop over the levels below [n], from fine to coarse. *)
Fixpoint vp_add_loop (n : nat) (grids : list grid) (x y : Z) : outcome (list grid) :=
  match n with
  | O => Ok grids
  | S i =>
      g ← or_ub (grids !! i);
      g ← grid_incr g x y;
      vp_add_loop i (<[i := g]> grids) (Z.shiftr x 1) (Z.shiftr y 1)
  end.

(** visibility_pyramid.cc:67-90, AddPoint. *)
Definition vp_add (p : pyramid) (point : Q * Q) : outcome pyramid :=
  x ← finest_cell (vp_max_cells p) (vp_width p) point.1;
  y ← finest_cell (vp_max_cells p) (vp_height p) point.2;
  grids ← vp_add_loop (length (vp_grids p)) (vp_grids p) x y;
  Ok (Pyramid (vp_width p) (vp_height p) (vp_max_cells p) grids).

(** Eigen's count(), the number of non-zero cells, and size(). *)
Definition grid_count (g : grid) : Z := Z.of_nat (size (filter (fun c : Z * Z * Z => c.2 <> 0) (g_cells g))).
Definition grid_size (g : grid) : Z := g_dim g * g_dim g.

(** Conversion of a 64-bit value to int, modulo 2^32 (gcc and clang). *)
Definition wrap32 (z : Z) : Z := (z + 2 ^ 31) mod 2 ^ 32 - 2 ^ 31.

(** visibility_pyramid.cc:96-102, ComputeScore.  The product and the sum are computed in Eigen::Index (64 bits). *)
Fixpoint vp_score_loop (grids : list grid) (score : Z) : outcome Z :=
  match grids with
  | [] => Ok score
  | g :: grids =>
      let prod := grid_count g * grid_size g in
      if decide (score + prod < 2 ^ 63 /\ prod < 2 ^ 63) then vp_score_loop grids (wrap32 (score + prod)) else UB
  end.
Definition vp_score (p : pyramid) : outcome Z := vp_score_loop (vp_grids p) 0.
