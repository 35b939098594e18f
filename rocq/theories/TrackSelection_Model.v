(** Model of the choice of tracks for bundle adjustment:
    /repo/src/theia/sfm/select_good_tracks_for_bundle_adjustment.cc.

    Doubles are exact rationals, None is a value that is not a number (0/0).  The conversion of a cell coordinate to int
    is taken to be in range. *)
From stdpp Require Import gmap sorting.
From Coq Require Import QArith_base Qcanon.
From Verif Require Import Base Reconstruction_Model SfmQueries_Model.

(** select_good_tracks_for_bundle_adjustment.cc:55-56: the truncated length and the mean error. *)
Definition statistics : Type := Z * option Qc.

(** operator< on doubles: false when a side is not a number. *)
Definition lt_double (a b : option Qc) : bool :=
  match a, b with Some x, Some y => bool_decide (x < y)%Qc | _, _ => false end.
(** operator< on std::pair<int, double>. *)
Definition lt_statistics (a b : statistics) : bool :=
  bool_decide (a.1 < b.1)%Z || (negb (bool_decide (b.1 < a.1)%Z) && lt_double a.2 b.2).

(** std::min_element with CompareGridCellElements (lines 62-66): a linear scan that keeps the first smallest element. *)
Definition min_element (e : N * statistics) (l : list (N * statistics)) : N * statistics :=
  foldl (fun best e => if lt_statistics e.2 best.2 then e else best) e l.

(** Conversion of a double to int: towards zero. *)
Definition trunc (x : Qc) : Z := Z.quot (Qnum x) (Zpos (Qden x)).

Section selection.
Context {F C D : Type} (sq_error : view F C -> D -> F -> Qc) (pos : F -> Qc * Qc).
Implicit Types r : recon F C D.

(** select_good_tracks_for_bundle_adjustment.cc:92-100: the sum of the squared errors (lines 69-75) and their number. *)
Fixpoint error_loop r (t : N) (T : track D) (vs : list N) (sum : Qc) (n : nat) : outcome (Qc * nat) :=
  match vs with
  | [] => Ok (sum, n)
  | u :: vs =>
      match rc_views r !! u with
      | Some v =>
          if v_est v then
            f ← or_ub (v_feats v !! t);
            error_loop r t T vs (sum + sq_error v (t_data T) f)%Qc (S n)
          else error_loop r t T vs sum n
      | None => error_loop r t T vs sum n
      end
  end.

(** select_good_tracks_for_bundle_adjustment.cc:79-108, ComputeStatisticsForTrack. *)
Definition track_statistics (o : order N) r (t : N) (threshold : Z) : outcome statistics :=
  T ← or_ub (rc_tracks r !! t);
  '(sum, n) ← error_loop r t T (o (elements (t_views T))) 0%Qc 0;
  Ok (Z.min (Z.of_nat n) threshold, if decide (n = 0%nat) then None else Some (sum / Q2Qc (Z.of_nat n # 1))%Qc).

(** select_good_tracks_for_bundle_adjustment.cc:128-143, the loop over the tracks of a view. *)
Definition stat_track_step (o : order N) r (threshold : Z) (m : gmap N statistics) (t : N) : outcome (gmap N statistics) :=
  match m !! t, rc_tracks r !! t with
  | None, Some T => if t_est T then s ← track_statistics o r t threshold; Ok (<[t := s]> m) else Ok m
  | _, _ => Ok m
  end.
(** select_good_tracks_for_bundle_adjustment.cc:123-144, the loop over the views. *)
Definition stat_view_step (o : order N) r (threshold : Z) (m : gmap N statistics) (u : N) : outcome (gmap N statistics) :=
  v ← or_ub (rc_views r !! u);
  run_steps (stat_track_step o r threshold) m (o (elements (dom (v_feats v)))).
(** select_good_tracks_for_bundle_adjustment.cc:116-145, ComputeTrackStatistics. *)
Definition compute_statistics (o : order N) r (views : gset N) (threshold : Z) : outcome (gmap N statistics) :=
  run_steps (stat_view_step o r threshold) ∅ (o (elements views)).

(** select_good_tracks_for_bundle_adjustment.cc:157, 171-172: the grid cell of a feature, for cells of [size] pixels.  With
    size 0 the coordinates are infinite and the conversion to int is undefined. *)
Definition cell_of (size : Z) (f : F) : outcome (Z * Z) :=
  if decide (size = 0%Z) then UB
  else let inv := (1 / Q2Qc (size # 1))%Qc in Ok (trunc ((pos f).1 * inv)%Qc, trunc ((pos f).2 * inv)%Qc).

(** select_good_tracks_for_bundle_adjustment.cc:162-175, the loop over the tracks of a view. *)
Definition grid_step r (size : Z) (stats : gmap N statistics) (v : view F C)
    (grid : gmap (Z * Z) (list (N * statistics))) (t : N) : outcome (gmap (Z * Z) (list (N * statistics))) :=
  match rc_tracks r !! t with
  | Some T =>
      if t_est T then
        f ← or_ub (v_feats v !! t);
        s ← or_die (stats !! t);
        c ← cell_of size f;
        Ok (<[c := default [] (grid !! c) ++ [(t, s)]]> grid)
      else Ok grid
  | None => Ok grid
  end.
(** select_good_tracks_for_bundle_adjustment.cc:179-189, the loop over the cells. *)
Definition cell_step (grid : gmap (Z * Z) (list (N * statistics))) (chosen : gset N) (c : Z * Z) : gset N :=
  match grid !! c with
  | Some (e :: l) => {[(min_element e l).1]} ∪ chosen
  | _ => chosen
  end.
(** select_good_tracks_for_bundle_adjustment.cc:151-190, SelectBestTracksFromEachImageGridCell.  The local static
    variable keeps the cell size of the first call in the process; it is the state [st]. *)
Definition select_cells (o : order N) (oc : order (Z * Z)) r (v : view F C) (size : Z) (stats : gmap N statistics)
    (st : option Z) (chosen : gset N) : outcome (option Z * gset N) :=
  let used := default size st in
  grid ← run_steps (grid_step r used stats v) ∅ (o (elements (dom (v_feats v))));
  Ok (Some used, foldl (cell_step grid) chosen (oc (elements (dom grid)))).

(** select_good_tracks_for_bundle_adjustment.cc:205-229, the loop over the tracks of a view: None when it returns early,
    otherwise the number of chosen tracks, of estimated tracks, and the candidates. *)
Fixpoint top_loop r (stats : gmap N statistics) (minimum : Z) (chosen : gset N) (ts : list N) (opt est : nat) (cand : list N)
    : outcome (option (nat * nat * list N)) :=
  match ts with
  | [] => Ok (Some (opt, est, cand))
  | t :: ts =>
      match rc_tracks r !! t with
      | Some T =>
          if t_est T then
            if decide (t ∈ chosen) then
              if decide (minimum <= Z.of_nat (S opt))%Z then Ok None
              else top_loop r stats minimum chosen ts (S opt) (S est) cand
            else
              _ ← or_die (stats !! t);
              top_loop r stats minimum chosen ts opt (S est) (cand ++ [t])
          else top_loop r stats minimum chosen ts opt est cand
      | None => top_loop r stats minimum chosen ts opt est cand
      end
  end.

(** select_good_tracks_for_bundle_adjustment.cc:194-249, SelectTopRankedTracksInView.  std::partial_sort compares pairs
    of a track id and its statistics; the ids are distinct, so the order is that of the ids. *)
Definition select_top (o : order N) r (stats : gmap N statistics) (v : view F C) (minimum : Z) (chosen : gset N)
    : outcome (gset N) :=
  res ← top_loop r stats minimum chosen (o (elements (dom (v_feats v)))) 0 0 [];
  match res with
  | None => Ok chosen
  | Some (opt, est, cand) =>
      if decide (opt = est) then Ok chosen
      else
        let needed := Z.min (minimum - Z.of_nat opt) (Z.of_nat est - Z.of_nat opt) in
        if decide (needed < 0)%Z then UB
        else Ok (list_to_set (take (Z.to_nat needed) (merge_sort N.le cand)) ∪ chosen)
  end.

(** The two loops over the views (lines 297-307 and 313-323). *)
Definition cells_view_step (o : order N) (oc : order (Z * Z)) r (size : Z) (stats : gmap N statistics)
    (s : option Z * gset N) (u : N) : outcome (option Z * gset N) :=
  v ← or_ub (rc_views r !! u);
  select_cells o oc r v size stats s.1 s.2.
Definition top_view_step (o : order N) r (stats : gmap N statistics) (minimum : Z) (chosen : gset N) (u : N)
    : outcome (gset N) :=
  v ← or_ub (rc_views r !! u);
  select_top o r stats v minimum chosen.

(** select_good_tracks_for_bundle_adjustment.cc:280-326, SelectGoodTracksForBundleAdjustment for the given views. *)
Definition select_tracks_in (o : order N) (oc : order (Z * Z)) r (views : gset N) (threshold size minimum : Z)
    (st : option Z) (chosen : gset N) : outcome (option Z * gset N) :=
  stats ← compute_statistics o r views threshold;
  '(st, chosen) ← run_steps (cells_view_step o oc r size stats) (st, chosen) (o (elements views));
  chosen ← run_steps (top_view_step o r stats minimum) chosen (o (elements views));
  Ok (st, chosen).

(** select_good_tracks_for_bundle_adjustment.cc:264-278, for all estimated views. *)
Definition select_tracks (o : order N) (oc : order (Z * Z)) r (threshold size minimum : Z)
    (st : option Z) (chosen : gset N) : outcome (option Z * gset N) :=
  select_tracks_in o oc r (estimated_views o r) threshold size minimum st chosen.
End selection.
