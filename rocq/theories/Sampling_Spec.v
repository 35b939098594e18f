(** Independent specification of samples. *)
From stdpp Require Import gmap.
From Verif Require Import Base Sampling_Model.
Open Scope Z_scope.

(** [xs] consists of [m] different indices of a vector of size [n]. *)
Definition good_sample (m n : Z) (xs : list Z) : Prop :=
  Z.of_nat (length xs) = m /\ NoDup xs /\ forall x, x ∈ xs -> 0 <= x < n.

(** A sequence of draws for a sample of size m out of n: the i-th draw is uniform on n - i values. *)
Definition draws (m n : Z) (ds : list Z) : Prop :=
  Z.of_nat (length ds) = m /\ forall i d, ds !! i = Some d -> 0 <= d < n - Z.of_nat i.

(** The stream starts with these draws. *)
Definition starts_with (r : stream) (ds : list Z) : Prop := forall i d, ds !! i = Some d -> r i = d.

(** The state of the exhaustive sampler after [k] samples, and its k-th sample. *)
Fixpoint es_after (k : nat) (s : es_state) : es_state :=
  match k with O => s | S k' => es_after k' (es_sample s []).1 end.
Definition es_nth (k : nat) (s : es_state) : list Z := (es_sample (es_after k s) []).2.

(** Every value keeps being drawn, for every range. *)
Definition fair (r : stream) : Prop :=
  forall b x n, 0 <= x < b -> exists k, (n <= k)%nat /\ r k mod b = x.

(** [k] samples of a random sampler, one after the other. *)
Fixpoint rs_run (k : nat) (m : Z) (indices : list Z) (r : stream) : outcome (list (list Z)) :=
  match k with
  | O => Ok []
  | S k' =>
      '(indices, r, xs) ← rs_sample m indices r [];
      rest ← rs_run k' m indices r;
      Ok (xs :: rest)
  end.

(** The calls a user of an exhaustive sampler can make. *)
Inductive es_op := EInit (n : Z) | ESample.
Definition es_step (s : es_state) (o : es_op) : outcome es_state :=
  match o with
  | EInit n => es_initialize s n
  | ESample => Ok (es_sample s []).1
  end.

(** Initialize comes first and is never called with a smaller number than before. *)
Fixpoint growing (n : Z) (ops : list es_op) : Prop :=
  match ops with
  | [] => True
  | EInit n' :: ops' => n <= n' /\ growing n' ops'
  | ESample :: ops' => growing n ops'
  end.
