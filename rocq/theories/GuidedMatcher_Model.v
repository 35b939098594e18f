(** Model of the guided matching along epipolar lines, GuidedEpipolarMatcher
    (/repo/src/theia/matching/guided_epipolar_matcher.{h,cc}).

    Coordinates and distances are exact rationals.  The normalized epipolar line of a keypoint (cc:201-207, 219-224), the
    search for nearest neighbors (FLANN, cc:388-403) and the random numbers are arguments.  The reserve() of the grids and
    the log output are not modelled. *)
From stdpp Require Import gmap numbers sorting.
From Coq Require Import QArith_base Qround.
From Verif Require Import Base VisibilityPyramid_Model.
Open Scope Q_scope.

Notation pixel := (Q * Q)%type.

(** static_cast<uint16_t> of a double: undefined when the truncated value does not fit. *)
Definition to_u16 (x : Q) : outcome Z := if decide (0 <= trunc x < 2 ^ 16)%Z then Ok (trunc x) else UB.

(** cc:60-71, EncodeLineEndpoints (called with two endpoints). *)
Definition encode (e : pixel * pixel) : outcome Z :=
  x1 ← to_u16 e.1.1;
  y1 ← to_u16 e.1.2;
  x2 ← to_u16 e.2.1;
  y2 ← to_u16 e.2.2;
  Ok (Z.lor (Z.lor (Z.lor (Z.lor 0 (Z.shiftl x1 48)) (Z.shiftl y1 32)) (Z.shiftl x2 16)) (Z.shiftl y2 0)).

(** cc:73-87, DecodeLineEndpoints. *)
Definition decode (c : Z) : pixel * pixel :=
  let s := Z.shiftr (Z.ones 64) 48 in
  ((inject_Z (Z.land s (Z.shiftr c 48)), inject_Z (Z.land s (Z.shiftr c 32))),
   (inject_Z (Z.land s (Z.shiftr c 16)), inject_Z (Z.land s (Z.shiftr c 0)))).

(** h:82-110 and cc:438-468, ImageGrid. *)
Record image_grid := ImageGrid { ig_size : Q; ig_x : Q; ig_y : Q; ig_cells : gmap (Z * Z) (list nat) }.

(** cc:455-463, GetClosestGridCenter, in one coordinate.  The quotient for cells of size 0 is not a number that fits. *)
Definition center (size offset x : Q) : outcome Z :=
  if Qeq_bool size 0 then UB
  else to_int (inject_Z (Qfloor ((x - offset) / (2 * size))) * 2 * size + size + offset).
Definition closest_center (g : image_grid) (p : pixel) : outcome (Z * Z) :=
  x ← center (ig_size g) (ig_x g) p.1;
  y ← center (ig_size g) (ig_y g) p.2;
  Ok (x, y).

(** cc:447-453, AddFeature. *)
Definition add_feature (i : nat) (p : pixel) (g : image_grid) : outcome image_grid :=
  c ← closest_center g p;
  Ok (ImageGrid (ig_size g) (ig_x g) (ig_y g) (<[c := default [] (ig_cells g !! c) ++ [i]]> (ig_cells g))).
Fixpoint add_to_grids (i : nat) (p : pixel) (gs : list image_grid) : outcome (list image_grid) :=
  match gs with
  | [] => Ok []
  | g :: gs => g ← add_feature i p g; gs ← add_to_grids i p gs; Ok (g :: gs)
  end.

(** cc:416-436, FindClosestCellAndKeypoints: the loop, with the closest grid and its center so far. *)
Definition sq_dist (a b : pixel) : Q := (a.1 - b.1) * (a.1 - b.1) + (a.2 - b.2) * (a.2 - b.2).
Fixpoint closest_cell (p : pixel) (gs : list image_grid) (best : option (image_grid * (Z * Z) * Q))
    : outcome (option (image_grid * (Z * Z) * Q)) :=
  match gs with
  | [] => Ok best
  | g :: gs =>
      c ← closest_center g p;
      let dist := sq_dist (inject_Z c.1, inject_Z c.2) p in
      closest_cell p gs
        match best with
        | None => Some (g, c, dist)
        | Some (_, _, m) => if negb (Qle_bool m dist) then Some (g, c, dist) else best
        end
  end.
Definition keypoints_near (gs : list image_grid) (p : pixel) : outcome (list nat) :=
  best ← closest_cell p gs None;
  '(g, c, _) ← or_ub best;
  Ok (default [] (ig_cells g !! c)).

(** *std::minmax_element of a vector: undefined if it is empty. *)
Definition Qmin2 (a b : Q) : Q := if Qle_bool a b then a else b.
Definition Qmax2 (a b : Q) : Q := if Qle_bool a b then b else a.
Definition minmax (l : list Q) : outcome (Q * Q) :=
  match l with [] => UB | x :: l => Ok (foldl Qmin2 x l, foldl Qmax2 x l) end.

(** The bounding box: top_left_ and bottom_right_. *)
Notation box := (pixel * pixel)%type.

(** cc:320-356, FindEpipolarLineIntersection.  A division by zero gives an infinity or a NaN, which is in no range. *)
Definition within (lo hi x : Q) : bool := Qle_bool lo x && Qle_bool x hi.
Definition crossing (b c lo hi : Q) : option Q :=
  if Qeq_bool b 0 then None else let v := (- c) / b in if within lo hi v then Some v else None.
Definition line_endpoints (bb : box) (l : Q * Q * Q) : list pixel :=
  let '(a, b, c) := l in
  let '((x0, y0), (x1, y1)) := bb in
  (match crossing b (c + a * x0) y0 y1 with Some v => [(x0, v)] | None => [] end) ++
  (match crossing a (c + b * y0) x0 x1 with Some v => [(v, y0)] | None => [] end) ++
  (match crossing b (c + a * x1) y0 y1 with Some v => [(x1, v)] | None => [] end) ++
  (match crossing a (c + b * y1) x0 x1 with Some v => [(v, y1)] | None => [] end).

(** h:112-116, EpilineGroup. *)
Record epiline_group := EpilineGroup { eg_endpoints : pixel * pixel; eg_features : list nat }.

(** cc:246-273: the groups in reverse order, so that the first one is back(). *)
Definition mix (w : Q) (a b : pixel) : pixel := ((1 - w) * a.1 + w * b.1, (1 - w) * a.2 + w * b.2).
Definition group_step (d : Q) (groups : list epiline_group) (e : Z * nat) : list epiline_group :=
  let ends := decode e.1 in
  let join (g : epiline_group) :=
    let fs := eg_features g ++ [e.2] in
    let w := 1 / inject_Z (Z.of_nat (length fs)) in
    EpilineGroup (mix w (eg_endpoints g).1 ends.1, mix w (eg_endpoints g).2 ends.2) fs in
  match groups with
  | [] => [join (EpilineGroup ends [])]
  | g :: rest =>
      if negb (Qle_bool (sq_dist (eg_endpoints g).1 ends.1) (d * d)) then join (EpilineGroup ends []) :: groups
      else join g :: rest
  end.

(** std::sort of pairs of an unsigned and an int. *)
Definition encoded_le (a b : Z * nat) : Prop := (a.1 < b.1)%Z \/ a.1 = b.1 /\ (a.2 <= b.2)%nat.
Global Instance encoded_le_dec a b : Decision (encoded_le a b).
Proof. unfold encoded_le. apply _. Defined.

Section model.
Context {D : Type}.
Context (line_of : pixel -> Q * Q * Q) (knn : list D -> list D -> list (list (Q * nat))) (draw : nat -> nat) (o : order nat).
Context (d ratio : Q) (ks1 ks2 : list pixel) (ds1 ds2 : list D).

(** cc:102-145, Initialize: the grids and the bounding box of the keypoints of the second image that have no match. *)
Fixpoint add_keypoints (matched : gset nat) (i : nat) (ks : list pixel) (gs : list image_grid) (xs : list pixel)
    : outcome (list image_grid * list pixel) :=
  match ks with
  | [] => Ok (gs, xs)
  | k :: ks =>
      if decide (i ∈ matched) then add_keypoints matched (S i) ks gs xs
      else gs ← add_to_grids i k gs; add_keypoints matched (S i) ks gs (xs ++ [k])
  end.
Definition initialize (matched2 : gset nat) : outcome (list image_grid * box) :=
  let grids := [ImageGrid d 0 0 ∅; ImageGrid d d 0 ∅; ImageGrid d 0 d ∅; ImageGrid d d d ∅] in
  '(gs, xs) ← add_keypoints matched2 0 ks2 grids [];
  x ← minmax (fst <$> xs);
  y ← minmax (snd <$> xs);
  Ok (gs, ((x.1, y.1), (x.2, y.2))).

(** cc:214-236: the encoded endpoints of the epipolar lines of the keypoints of the first image without a match. *)
Fixpoint encoded_lines (matched : gset nat) (bb : box) (i : nat) (ks : list pixel) : outcome (list (Z * nat)) :=
  match ks with
  | [] => Ok []
  | k :: ks =>
      if decide (i ∈ matched) then encoded_lines matched bb (S i) ks
      else
        match line_endpoints bb (line_of k) with
        | [a; b] => c ← encode (a, b); rest ← encoded_lines matched bb (S i) ks; Ok ((c, i) :: rest)
        | _ => encoded_lines matched bb (S i) ks
        end
  end.

(** cc:197-274, GroupEpipolarLines. *)
Definition group_lines (matched1 : gset nat) (bb : box) : outcome (list epiline_group) :=
  es ← encoded_lines matched1 bb 0 ks1;
  Ok (reverse (foldl (group_step d) [] (merge_sort encoded_le es))).

(** cc:283-303: the keypoints near the sample points of the line.  The quotient of the norm by [d] is truncated to an
    integer: the integer square root of the truncated quotient of the squares. *)
Definition num_steps (ends : pixel * pixel) : outcome nat :=
  if Qeq_bool d 0 then UB
  else let n := Z.sqrt (Qfloor (sq_dist ends.2 ends.1 / (d * d))) in
       if decide (n < 2 ^ 31)%Z then Ok (Z.to_nat n) else UB.
Fixpoint walk (gs : list image_grid) (delta p : pixel) (n : nat) (found : gset nat) : outcome (gset nat) :=
  match n with
  | O => Ok found
  | S n =>
      let p := (p.1 + delta.1, p.2 + delta.2) in
      l ← keypoints_near gs p;
      walk gs delta p n (found ∪ list_to_set l)
  end.

(** cc:276-318, FindFeaturesNearEpipolarLines; [t] random numbers have been used so far. *)
Definition kMinNumMatchesFound : nat := 50.
Definition candidates (gs : list image_grid) (g : epiline_group) (t : nat) : outcome (list nat * nat) :=
  let '(e0, e1) := eg_endpoints g in
  n ← num_steps (e0, e1);
  let m := inject_Z (Z.of_nat n) in
  found ← walk gs ((e0.1 - e1.1) / m, (e0.2 - e1.2) / m) e1 n ∅;
  let k := (kMinNumMatchesFound - size found)%nat in
  Ok (o (elements (found ∪ list_to_set ((fun i => draw (t + i)) <$> seq 0 k))), (t + k)%nat).

(** cc:358-414, FindKNearestNeighbors: for every feature of the group its neighbors, with indices of keypoints of the
    second image.  The two first neighbors are accessed, which is undefined if there is only one. *)
Fixpoint at_indices {A} (l : list A) (is : list nat) : outcome (list A) :=
  match is with
  | [] => Ok []
  | i :: is => x ← or_ub (l !! i); xs ← at_indices l is; Ok (x :: xs)
  end.
Definition two_nearest (cands : list nat) (nn : list (Q * nat)) : outcome ((Q * nat) * (Q * nat)) :=
  a ← or_ub (nn !! 0%nat);
  b ← or_ub (nn !! 1%nat);
  i ← or_ub (cands !! a.2);
  j ← or_ub (cands !! b.2);
  Ok ((a.1, i), (b.1, j)).
Fixpoint all_nearest (cands : list nat) (nns : list (list (Q * nat))) : outcome (list ((Q * nat) * (Q * nat))) :=
  match nns with
  | [] => Ok []
  | nn :: nns => x ← two_nearest cands nn; xs ← all_nearest cands nns; Ok (x :: xs)
  end.
Definition nearest_neighbors (fs cands : list nat) : outcome (list ((Q * nat) * (Q * nat))) :=
  q ← at_indices ds1 fs;
  c ← at_indices ds2 cands;
  all_nearest cands (knn q c).

(** cc:172-184: the ratio test. *)
Fixpoint ratio_test (fs : list nat) (nns : list ((Q * nat) * (Q * nat))) : outcome (list (nat * nat * Q)) :=
  match nns with
  | [] => Ok []
  | (a, b) :: nns =>
      f ← or_ub (head fs);
      rest ← ratio_test (tail fs) nns;
      Ok (if negb (Qle_bool (b.1 * (ratio * ratio)) a.1) then (f, a.2, a.1) :: rest else rest)
  end.

(** cc:160-185, the loop over the groups. *)
Definition match_group (gs : list image_grid) (st : list (nat * nat * Q) * nat) (g : epiline_group)
    : outcome (list (nat * nat * Q) * nat) :=
  '(cands, t) ← candidates gs g st.2;
  nns ← nearest_neighbors (eg_features g) cands;
  added ← ratio_test (eg_features g) nns;
  Ok (st.1 ++ added, t).

(** cc:147-195, GetMatches.  A match is (feature1_ind, feature2_ind, distance). *)
Definition get_matches (ms : list (nat * nat * Q)) : outcome (list (nat * nat * Q)) :=
  let matched1 : gset nat := list_to_set ((fun m => m.1.1) <$> ms) in
  let matched2 : gset nat := list_to_set ((fun m => m.1.2) <$> ms) in
  '(gs, bb) ← initialize matched2;
  groups ← group_lines matched1 bb;
  res ← run_steps (match_group gs) (ms, 0%nat) groups;
  Ok res.1.
End model.
