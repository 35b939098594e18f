(** Model of /repo/src/theia/sfm/filter_view_pairs_from_relative_translation.cc, on top of the model of the view graph.

    Simplifications: doubles are real numbers.  The random axes (lines 215-221) are arguments, arbitrary vectors; for a
    view graph with a single edge the variance of line 194 is 0/0 and the axis is not a number, which is not modelled.
    The iterations run in a thread pool (lines 279-291) and add to the shared weights under a mutex; they do not read
    the weights, so a schedule is an order of all additions. *)
From stdpp Require Import gmap.
From Coq Require Import Reals.
From Verif Require Import Base ViewGraph_Model Camera_Model RotationGraph_Model.
Open Scope R_scope.

Definition Rltb (a b : R) : bool := if Rlt_dec a b then true else false.

(** filter_view_pairs_from_relative_translation.cc:59-64, MFASNode. *)
Record mfas_node := MFASNode { n_in : gmap N R; n_out : gmap N R; w_in : R; w_out : R }.
Global Instance mfas_node_inhabited : Inhabited mfas_node := populate (MFASNode ∅ ∅ 0 0).
(** operator[] with an update of the entry. *)
Definition node_update (f : mfas_node -> mfas_node) (v : N) (m : gmap N mfas_node) : gmap N mfas_node :=
  <[v := f (m !!! v)]> m.
(** emplace: an entry that exists is left alone. *)
Definition emplace (v : N) (w : R) (m : gmap N R) : gmap N R := match m !! v with Some _ => m | None => <[v := w]> m end.

(** 68-85, RotateRelativeTranslationsToGlobalFrame. *)
Definition rotate_step (orientations : gmap N vec3) (acc : gmap (N * N) vec3) (e : (N * N) * two_view)
    : outcome (gmap (N * N) vec3) :=
  o ← or_die (orientations !! e.1.1);
  Ok (<[e.1 := aa_rotate (vscale (-1) o) (tv_position e.2)]> acc).
Definition rotate_translations (oe : order ((N * N) * two_view)) (orientations : gmap N vec3)
    (edges : gmap (N * N) two_view) : outcome (gmap (N * N) vec3) :=
  run_steps (rotate_step orientations) ∅ (oe (map_to_list edges)).

(** 90-110, FindNextViewInOrder, over the nodes in the order of iteration. *)
Fixpoint find_next (best_choice : N) (best_score : R) (l : list (N * mfas_node)) : N :=
  match l with
  | [] => best_choice
  | (v, n) :: l =>
      if decide (size (n_in n) = 0%nat) then v
      else
        let score := (w_out n + 1) / (w_in n + 1) in
        if Rlt_dec best_score score then find_next v score l else find_next best_choice best_score l
  end.

(** 117-134, the degrees of all vertices.  The updates of lines 128-133 are grouped by node. *)
Definition degree_step (m : gmap N mfas_node) (p : (N * N) * R) : gmap N mfas_node :=
  let '(s, t) := if Rlt_dec 0 p.2 then p.1 else (p.1.2, p.1.1) in
  let w := Rabs p.2 in
  let m := node_update (fun n => MFASNode (emplace s w (n_in n)) (n_out n) (w_in n + w) (w_out n)) t m in
  node_update (fun n => MFASNode (n_in n) (emplace t w (n_out n)) (w_in n) (w_out n + w)) s m.

(** 147-158, the updates for the neighbors of the chosen view [v]. *)
Definition drop_out (v : N) (m : gmap N mfas_node) (u : N * R) : gmap N mfas_node :=
  node_update (fun n => MFASNode (n_in n) (delete v (n_out n)) (w_in n) (w_out n - u.2)) u.1 m.
Definition drop_in (v : N) (m : gmap N mfas_node) (u : N * R) : gmap N mfas_node :=
  node_update (fun n => MFASNode (delete v (n_in n)) (n_out n) (w_in n - u.2) (w_out n)) u.1 m.
(** 137-160, the loop that orders the views. *)
Fixpoint order_loop (on : order (N * mfas_node)) (ow : order (N * R)) (num_views i : nat) (m : gmap N mfas_node)
    (ordering : gmap N nat) : outcome (gmap N nat) :=
  match num_views with
  | 0%nat => Ok ordering
  | S k =>
      let v := find_next kInvalidViewId 0 (on (map_to_list m)) in
      n ← or_die (m !! v);
      let m := foldl (drop_out v) m (ow (map_to_list (n_in n))) in
      let m := foldl (drop_in v) m (ow (map_to_list (n_out n))) in
      order_loop on ow k (S i) (delete v m) (<[v := i]> ordering)
  end.
(** 114-163, OrderTranslationsFromProjections. *)
Definition order_translations (op : order ((N * N) * R)) (on : order (N * mfas_node)) (ow : order (N * R))
    (projections : gmap (N * N) R) : outcome (gmap N nat) :=
  let m := foldl degree_step ∅ (op (map_to_list projections)) in
  order_loop on ow (size m) 0 m ∅.

(** 233-251, the body of the loop over the edges: the addition to the weight of an edge, if any. *)
Definition bad_edge (ordering : gmap N nat) (projections : gmap (N * N) R) (e : N * N) : outcome (list ((N * N) * R)) :=
  d2 ← or_die (ordering !! e.2);
  d1 ← or_die (ordering !! e.1);
  p ← or_die (projections !! e);
  Ok (if bool_decide (d2 < d1)%nat && Rltb 0 p || bool_decide (d1 < d2)%nat && Rltb p 0
      then [(e, Rabs p)] else []).
(** 199-252, TranslationFilteringIteration and ProjectTranslationsOntoAxis (166-177): the additions to the weights. *)
Definition filter_iteration (oo : order (N * N)) (op : order ((N * N) * R)) (on : order (N * mfas_node)) (ow : order (N * R))
    (translations : gmap (N * N) vec3) (axis : vec3) : outcome (list ((N * N) * R)) :=
  let projections := (fun t => dot t axis) <$> translations in
  ordering ← order_translations op on ow projections;
  run_steps (fun acc e => l ← bad_edge ordering projections e; Ok (acc ++ l)) [] (oo (elements (dom translations))).

(** 256-308, FilterViewPairsFromRelativeTranslation.  [axes] are the axes of the iterations, [sched] is the order in
    which the additions take place. *)
Definition add_weight (m : gmap (N * N) R) (a : (N * N) * R) : gmap (N * N) R := <[a.1 := default 0 (m !! a.1) + a.2]> m.
Definition filter_translations (oe : order ((N * N) * two_view)) (oo : order (N * N)) (op : order ((N * N) * R))
    (on : order (N * mfas_node)) (ow : order (N * R)) (sched : order ((N * N) * R)) (ob : order ((N * N) * R))
    (axes : list vec3) (num_iterations : Z) (tolerance : R) (orientations : gmap N vec3) (g : view_graph two_view)
    : outcome (view_graph two_view) :=
  translations ← rotate_translations oe orientations (vg_edges g);
  additions ← run_steps (fun acc axis => l ← filter_iteration oo op on ow translations axis; Ok (acc ++ l)) [] axes;
  let weights := foldl add_weight ((fun _ => 0) <$> vg_edges g) (sched additions) in
  let bad := List.filter (fun p : (N * N) * R => Rltb (tolerance * IZR num_iterations) p.2) (ob (map_to_list weights)) in
  Ok (foldl (fun g p => (vg_remove_edge g p.1.1 p.1.2).1) g bad).
