(** Property C39: the visibility pyramid. *)
From stdpp Require Import gmap numbers.
From Coq Require Import QArith_base Qround.
From Verif Require Import Base VisibilityPyramid_Model VisibilityPyramid_Spec VisibilityPyramid_Proofs.
Open Scope Z_scope.

(** Run a whole history: construct, add the points, compute the score. *)
Definition pyramid_score (width height levels : Z) (points : list (Q * Q)) : outcome Z :=
  p ← vp_new width height levels;
  p ← run_steps vp_add p points;
  vp_score p.

(** C39, for up to seven levels (the default is six): the score is the weighted number of occupied cells, and no
    access is outside the grid. *)
Theorem visibility_pyramid_partial (levels : nat) width height points :
  (0 < levels <= 7)%nat -> 0 < width -> 0 < height ->
  Forall (fun p => representable levels width p.1 /\ representable levels height p.2) points ->
  pyramid_score width height (Z.of_nat levels) points = Ok (score levels width height points).
Proof.
  intros HL Hw Hh Hpts. destruct (adds_ok levels width height points) as (p0 & p & H1 & H2 & H3); [lia|done..|].
  unfold pyramid_score. rewrite H1. cbn [mbind outcome_bind]. rewrite H2. cbn [mbind outcome_bind].
  by apply score_ok.
Qed.

(** Up to thirty levels no access is outside the grid either; only the score may overflow. *)
Theorem visibility_pyramid_in_range (levels : nat) width height points :
  (0 < levels <= 30)%nat -> 0 < width -> 0 < height ->
  Forall (fun p => representable levels width p.1 /\ representable levels height p.2) points ->
  exists p0 p, vp_new width height (Z.of_nat levels) = Ok p0 /\ run_steps vp_add p0 points = Ok p /\
    forall i, (1 <= i <= levels)%nat -> exists g, vp_grids p !! (i - 1)%nat = Some g /\ g_dim g = 2 ^ Z.of_nat i /\
      forall c, c ∈ occupied i width height points <-> default 0 (g_cells g !! c) <> 0.
Proof.
  intros HL Hw Hh Hpts. destruct (adds_ok levels width height points HL Hw Hh Hpts) as (p0 & p & H1 & H2 & H3).
  exists p0, p. split_and!; [done..|]. intros i Hi. destruct H3 as (_ & _ & _ & H4 & H5).
  destruct (lookup_lt_is_Some_2 (vp_grids p) (i - 1)) as [g Hg]; [lia|]. exists g. split; [done|].
  destruct (H5 _ _ Hg) as (Hd & Hdom & Hpos). replace (S (i - 1)) with i in * by lia. split; [done|].
  intros c. rewrite <- Hdom, elem_of_dom. split.
  - intros [v Hv]. rewrite Hv. pose proof (Hpos _ _ Hv). simpl in *. lia.
  - destruct (g_cells g !! c); [done|]. done.
Qed.

(** The order of the points does not matter, and more points never lower the score. *)
Theorem visibility_pyramid_order (levels : nat) width height points points' :
  (0 < levels <= 7)%nat -> 0 < width -> 0 < height ->
  Forall (fun p => representable levels width p.1 /\ representable levels height p.2) points ->
  points ≡ₚ points' ->
  pyramid_score width height (Z.of_nat levels) points = pyramid_score width height (Z.of_nat levels) points'.
Proof.
  intros HL Hw Hh Hpts Hp. rewrite !visibility_pyramid_partial; try done; [|by rewrite <- Hp].
  f_equal. apply Z.le_antisymm; apply score_mono; intros x; by rewrite Hp.
Qed.
Theorem visibility_pyramid_monotone (levels : nat) width height points more :
  (0 < levels <= 7)%nat -> 0 < width -> 0 < height ->
  Forall (fun p => representable levels width p.1 /\ representable levels height p.2) (points ++ more) ->
  exists s s', pyramid_score width height (Z.of_nat levels) points = Ok s /\
    pyramid_score width height (Z.of_nat levels) (points ++ more) = Ok s' /\ s <= s'.
Proof.
  intros HL Hw Hh Hpts. do 2 eexists. split_and!.
  - apply visibility_pyramid_partial; try done. by apply Forall_app in Hpts as [? _].
  - by apply visibility_pyramid_partial.
  - apply score_mono. intros x Hx. apply elem_of_app. by left.
Qed.

Example visibility_pyramid_sample :
  pyramid_score 640 480 3 [(Qmake 10 1, Qmake 20 1); (Qmake 11 1, Qmake 21 1); (Qmake 639 1, Qmake 959 2);
    (Qmake (-3) 1, Qmake 2000 1)] = Ok (3 * 4 + 3 * 16 + 3 * 64) /\
  score 3 640 480 [(Qmake 10 1, Qmake 20 1); (Qmake 11 1, Qmake 21 1); (Qmake 639 1, Qmake 959 2);
    (Qmake (-3) 1, Qmake 2000 1)] = 252 /\
  representable 3 480 (Qmake 2000 1) /\ representable 3 640 (Qmake (-3) 1).
Proof. split_and!; vm_compute; done. Qed.

(** With fifteen levels the score of two points is negative: adding a point lowered it. *)
Theorem visibility_pyramid_refuted :
  pyramid_score 2 2 15 [(0, 0)%Q] = Ok 1431655764 /\
  pyramid_score 2 2 15 [(0, 0)%Q; (1, 1)%Q] = Ok (-1431655768) /\
  score 15 2 2 [(0, 0)%Q; (1, 1)%Q] = 2 * 1431655764.
Proof. split_and!; vm_compute; reflexivity. Qed.

Print Assumptions visibility_pyramid_partial.
Print Assumptions visibility_pyramid_in_range.
Print Assumptions visibility_pyramid_order.
Print Assumptions visibility_pyramid_monotone.
Print Assumptions visibility_pyramid_refuted.
