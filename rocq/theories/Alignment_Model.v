(** Model of the alignment of point clouds and reconstructions:
    /repo/src/theia/sfm/transformation/align_point_clouds.cc and align_reconstructions.cc:95-128.

    Simplification: doubles are modelled by real numbers (no rounding).  A result that involves a
    division by zero is [None].  Eigen's singular value decomposition is an argument. *)
From stdpp Require Import gmap strings.
From Coq Require Import Reals.
From Verif Require Import Base Reconstruction_Model SfmQueries_Model Camera_Model.
Local Open Scope R_scope.

(** The three outputs of the alignment, align_point_clouds.cc:54-55. *)
Record similarity := Similarity { s_rotation : mat3; s_translation : vec3; s_scale : R }.

(** align_point_clouds.cc:79-86.  The loop that accumulates the sum of the weights and the two centroids, with the
    CHECK on each weight. *)
Definition centroid_step (st : R * vec3 * vec3) (p : vec3 * vec3 * R) : outcome (R * vec3 * vec3) :=
  let '(ws, lc, rc) := st in
  let '(l, r, w) := p in
  if Rge_dec w 0 then Ok (ws + w, vadd lc (vscale w l), vadd rc (vscale w r)) else CheckFail.

(** align_point_clouds.cc:93-97. *)
Definition sigma_loop (lc : vec3) (ps : list (vec3 * vec3 * R)) : R :=
  foldl (fun s p => let '(l, _, w) := p in s + dot (vsub l lc) (vsub l lc) * w) 0 ps.

(** The outer product of two vectors. *)
Definition outer (a b : vec3) : mat3 := M3 (vscale (x3 a) b) (vscale (y3 a) b) (vscale (z3 a) b).
Definition madd (A B : mat3) : mat3 := M3 (vadd (row0 A) (row0 B)) (vadd (row1 A) (row1 B)) (vadd (row2 A) (row2 B)).
Definition mzero : mat3 := M3 (V3 0 0 0) (V3 0 0 0) (V3 0 0 0).

(** align_point_clouds.cc:101-106. *)
Definition cross_loop (lc rc : vec3) (ps : list (vec3 * vec3 * R)) : mat3 :=
  foldl (fun m p => let '(l, r, w) := p in madd m (outer (vscale w (vsub l lc)) (vsub r rc))) mzero ps.

Definition diag3 (a b c : R) : mat3 := M3 (V3 a 0 0) (V3 0 b 0) (V3 0 0 c).

(** align_point_clouds.cc:51-124, AlignPointCloudsUmeyamaWithWeights.  [svd] returns the matrices U, the singular
    values and V of Eigen::JacobiSVD.  Lines 71-74 access the first element of both clouds.  If sigma is zero the scale
    is the quotient of two zeros and the translation is computed from it: [None]. *)
Definition align_weighted (svd : mat3 -> mat3 * vec3 * mat3) (left right : list vec3) (weights : list R)
  : outcome (option similarity) :=
  if decide (length left = length right) then
  if decide (length left = length weights) then
  match left with
  | [] => UB
  | _ =>
    let ps := zip (zip left right) weights in
    '(ws, lsum, rsum) ← run_steps centroid_step (0, V3 0 0 0, V3 0 0 0) ps;
    if Rgt_dec ws 0 then
      let lc := vscale (/ ws) lsum in
      let rc := vscale (/ ws) rsum in
      let sigma := sigma_loop lc ps / ws in
      let correlation := mscale (/ ws) (cross_loop lc rc ps) in
      let '(U, sv, V) := svd (mtrans correlation) in
      let det := det3 U * det3 (mtrans V) in
      let s22 := if Rgt_dec det 0 then 1 else -1 in
      if Req_EM_T sigma 0 then Ok None
      else
        let scale := (x3 sv + y3 sv + s22 * z3 sv) / sigma in
        let rotation := mmul (mmul U (diag3 1 1 s22)) (mtrans V) in
        let translation := vsub rc (mapply (mscale scale rotation) lc) in
        Ok (Some (Similarity rotation translation scale))
    else CheckFail
  end
  else CheckFail
  else CheckFail.

(** align_point_clouds.cc:42-49, AlignPointCloudsUmeyama. *)
Definition align_point_clouds (svd : mat3 -> mat3 * vec3 * mat3) (left right : list vec3) : outcome (option similarity) :=
  align_weighted svd left right (replicate (length left) 1).

(** align_reconstructions.cc:103-113.  The positions of the views with the given names. *)
Fixpoint positions_of {F} (r : recon F pose vec4) (names : list string) : outcome (list vec3) :=
  match names with
  | [] => Ok []
  | n :: names =>
      v ← or_ub (rc_views r !! rc_view_id_from_name r n);
      ps ← positions_of r names;
      Ok (p_pos (v_data v) :: ps)
  end.

(** align_reconstructions.cc:95-128, AlignReconstructions.  [o] is the iteration order of the views of the first
    reconstruction, [ov] and [ot] the orders in which TransformReconstruction visits views and tracks.  If the
    alignment is not a number, so are all transformed positions: [None]. *)
Definition align_reconstructions {F} (svd : mat3 -> mat3 * vec3 * mat3) (to_aa : mat3 -> vec3) (o ov ot : order N)
    (r1 r2 : recon F pose vec4) : outcome (option (recon F pose vec4)) :=
  names ← find_common_views_by_name o r1 r2;
  positions1 ← positions_of r1 names;
  positions2 ← positions_of r2 names;
  a ← align_point_clouds svd positions2 positions1;
  match a with
  | Some t => Ok (Some (transform_reconstruction ov ot to_aa (s_rotation t) (s_translation t) (s_scale t) r2))
  | None => Ok None
  end.
