(** Model of the linear algebra that the least-squares solvers use: vectors of any length, symmetric matrices by their
    lower triangle, Cholesky decomposition (Eigen::LLT), and the smallest singular vector or eigenvector.

    Simplification: doubles are modelled by real numbers (no rounding).  LLT is modelled in exact arithmetic: it fails
    at a pivot that is not positive. *)
From stdpp Require Import list.
From Coq Require Import Reals.
Local Open Scope R_scope.

Fixpoint ldot (a b : list R) : R :=
  match a, b with
  | x :: a, y :: b => x * y + ldot a b
  | _, _ => 0
  end.
Fixpoint ladd (a b : list R) : list R :=
  match a, b with
  | x :: a, y :: b => (x + y) :: ladd a b
  | _, _ => []
  end.
Definition lscale (k : R) (a : list R) : list R := map (Rmult k) a.

(** A symmetric matrix by its lower triangle: the first entry, the rest of the first column, the remaining matrix. *)
Inductive sym := SNil | SCons (a : R) (b : list R) (rest : sym).
Fixpoint sym_ok (n : nat) (s : sym) : Prop :=
  match n, s with
  | 0%nat, SNil => True
  | S n, SCons _ b rest => length b = n /\ sym_ok n rest
  | _, _ => False
  end.
Fixpoint sym_zero (n : nat) : sym :=
  match n with 0%nat => SNil | S n => SCons 0 (replicate n 0) (sym_zero n) end.
(** s + k b b^T and s + k I. *)
Fixpoint sym_outer (k : R) (b : list R) (s : sym) : sym :=
  match b, s with
  | x :: b, SCons a c rest => SCons (a + k * (x * x)) (ladd c (lscale (k * x) b)) (sym_outer k b rest)
  | _, _ => s
  end.
Fixpoint sym_shift (k : R) (s : sym) : sym :=
  match s with SNil => SNil | SCons a b rest => SCons (a + k) b (sym_shift k rest) end.
Fixpoint sym_apply (s : sym) (v : list R) : list R :=
  match s, v with
  | SCons a b rest, x :: v => (a * x + ldot b v) :: ladd (lscale x b) (sym_apply rest v)
  | _, _ => []
  end.
Fixpoint sym_quad (s : sym) (v : list R) : R :=
  match s, v with
  | SCons a b rest, x :: v => a * (x * x) + 2 * x * ldot b v + sym_quad rest v
  | _, _ => 0
  end.
(** A^T A for a matrix with the given rows. *)
Definition gram (n : nat) (rows : list (list R)) : sym := foldr (fun r s => sym_outer 1 r s) (sym_zero n) rows.

(** Eigen::LLT and its solve(): elimination of the first unknown, with the Schur complement for the others. *)
Fixpoint llt_solve (n : nat) (s : sym) (r : list R) : option (list R) :=
  match n, s, r with
  | 0%nat, SNil, [] => Some []
  | S n, SCons a b rest, y :: r =>
    if Rlt_dec 0 a then
      match llt_solve n (sym_outer (- / a) b rest) (ladd r (lscale (- (y / a)) b)) with
      | Some v => Some (((y - ldot b v) / a) :: v)
      | None => None
      end
    else None
  | _, _, _ => None
  end.

(** What is used of the singular value decomposition of a matrix with the given rows of length n
    (jacobiSvd(ComputeFullV).matrixV().rightCols<1>(), or the kernel of a matrix that has one): a unit vector whose
    image is shortest. *)
Definition smallest_contract (smallest : nat -> list (list R) -> list R) : Prop :=
  forall n rows, (0 < n)%nat -> Forall (fun r => length r = n) rows ->
    let v := smallest n rows in
    length v = n /\ ldot v v = 1 /\
    forall u, length u = n -> ldot u u = 1 ->
      foldr (fun r s => ldot r v * ldot r v + s) 0 rows <= foldr (fun r s => ldot r u * ldot r u + s) 0 rows.
(** What is used of Eigen::SelfAdjointEigenSolver: the first eigenvector is a unit vector that minimizes the quadratic
    form. *)
Definition eigen_contract (eigen : nat -> sym -> list R) : Prop :=
  forall n s, (0 < n)%nat -> sym_ok n s ->
    let v := eigen n s in
    length v = n /\ ldot v v = 1 /\ forall u, length u = n -> ldot u u = 1 -> sym_quad s v <= sym_quad s u.
