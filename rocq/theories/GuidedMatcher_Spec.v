(** Independent specification of guided matching. *)
From stdpp Require Import gmap numbers.
From Coq Require Import QArith_base QArith Qround.
From Verif Require Import Base GuidedMatcher_Model.
Open Scope Q_scope.

Section spec.
Context {D : Type}.

(** The contract of the nearest neighbor search: for every query the (at most) two nearest candidates, by position, with
    their distances, the nearest one first. *)
Definition knn_contract (dist : D -> D -> Q) (knn : list D -> list D -> list (list (Q * nat))) : Prop :=
  forall qs cs, length (knn qs cs) = length qs /\
    forall i q nn, qs !! i = Some q -> knn qs cs !! i = Some nn ->
      length nn = Nat.min 2 (length cs) /\ NoDup nn.*2 /\
      (forall x, x ∈ nn -> exists c, cs !! x.2 = Some c /\ x.1 == dist q c) /\
      (forall a b, nn !! 0%nat = Some a -> nn !! 1%nat = Some b -> a.1 <= b.1) /\
      (forall x j c, x ∈ nn -> cs !! j = Some c -> j ∉ nn.*2 -> x.1 <= dist q c).

(** Random indices below [n]. *)
Definition draws_below (draw : nat -> nat) (n : nat) : Prop := forall i, (draw i < n)%nat.

(** A feature that occurs in a match. *)
Definition matched1 (ms : list (nat * nat * Q)) (f : nat) : Prop := exists m, m ∈ ms /\ m.1.1 = f.
Definition matched2 (ms : list (nat * nat * Q)) (f : nat) : Prop := exists m, m ∈ ms /\ m.1.2 = f.

(** A match between features 1 and 2 that passes the ratio test among the features [cs] of the second image: no other one
    of them is nearer, and its distance is smaller than the squared ratio times that of the nearest other one. *)
Definition passes (dist : D -> D -> Q) (ratio : Q) (ds1 ds2 : list D) (cs : list nat) (m : nat * nat * Q) : Prop :=
  m.1.2 ∈ cs /\
  exists q c f' c', ds1 !! m.1.1 = Some q /\ ds2 !! m.1.2 = Some c /\ m.2 == dist q c /\
    f' ∈ cs /\ f' <> m.1.2 /\ ds2 !! f' = Some c' /\ m.2 < dist q c' * (ratio * ratio) /\
    (forall f'' c'', f'' ∈ cs -> ds2 !! f'' = Some c'' -> dist q c <= dist q c'') /\
    (forall f'' c'', f'' ∈ cs -> f'' <> m.1.2 -> ds2 !! f'' = Some c'' -> dist q c' <= dist q c'').
End spec.

(** The line a x + b y + c = 0. *)
Definition on_line (l : Q * Q * Q) (p : pixel) : Prop := l.1.1 * p.1 + l.1.2 * p.2 + l.2 == 0.
(** The points and the border of a box, and its corners. *)
Definition in_box (bb : pixel * pixel) (p : pixel) : Prop := bb.1.1 <= p.1 <= bb.2.1 /\ bb.1.2 <= p.2 <= bb.2.2.
Definition on_border (bb : pixel * pixel) (p : pixel) : Prop :=
  in_box bb p /\ (p.1 == bb.1.1 \/ p.1 == bb.2.1 \/ p.2 == bb.1.2 \/ p.2 == bb.2.2).
Definition corner (bb : pixel * pixel) (p : pixel) : Prop :=
  (p.1 == bb.1.1 \/ p.1 == bb.2.1) /\ (p.2 == bb.1.2 \/ p.2 == bb.2.2).

(** The line and the box have a common point. *)
Definition meets (bb : pixel * pixel) (l : Q * Q * Q) : Prop := exists p, in_box bb p /\ on_line l p.
(** The point with its coordinates rounded down. *)
Definition rounded (p : pixel) : pixel := (inject_Z (Qfloor p.1), inject_Z (Qfloor p.2)).

(** [bb] is the smallest box with the points [P]. *)
Definition bounds (P : pixel -> Prop) (bb : pixel * pixel) : Prop :=
  (forall p, P p -> in_box bb p) /\
  (exists p, P p /\ p.1 = bb.1.1) /\ (exists p, P p /\ p.1 = bb.2.1) /\
  (exists p, P p /\ p.2 = bb.1.2) /\ (exists p, P p /\ p.2 = bb.2.2).

(** Both coordinates of [a] and [b] differ by at most [r] (less than [r]). *)
Definition close (r : Q) (a b : pixel) : Prop := - r <= a.1 - b.1 <= r /\ - r <= a.2 - b.2 <= r.
Definition closer (r : Q) (a b : pixel) : Prop := - r < a.1 - b.1 < r /\ - r < a.2 - b.2 < r.

(** The [k]-th of [n] points from [b] to [a]. *)
Definition sample (a b : pixel) (n k : nat) : pixel :=
  let w := inject_Z (Z.of_nat k) / inject_Z (Z.of_nat n) in (b.1 + w * (a.1 - b.1), b.2 + w * (a.2 - b.2)).

(** The squared length of a segment. *)
Definition sq_length (e : pixel * pixel) : Q :=
  (e.1.1 - e.2.1) * (e.1.1 - e.2.1) + (e.1.2 - e.2.2) * (e.1.2 - e.2.2).

(** The features [cs] of the second image considered for a group of lines with the mean segment [e]: the features [found]
    near the sample points of the segment, which are between [d] and [2 d] apart, and random ones if these are less than 50. *)
Definition searched (draw : nat -> nat) (d : Q) (U : nat -> pixel -> Prop) (e : pixel * pixel) (cs : list nat) : Prop :=
  exists (n t : nat) (found : list nat),
    inject_Z (Z.of_nat n) * inject_Z (Z.of_nat n) * (d * d) <= sq_length e /\
    sq_length e < (inject_Z (Z.of_nat n) + 1) * (inject_Z (Z.of_nat n) + 1) * (d * d) /\
    NoDup found /\ NoDup cs /\
    (forall i, i ∈ found -> exists k, U i k) /\
    (forall i, i ∈ cs <-> i ∈ found \/ exists r, (t <= r < t + (50 - length found))%nat /\ i = draw r) /\
    (forall z : Z, (0 < z)%Z -> d = inject_Z z ->
       (forall i k j, U i k -> (1 <= j <= n)%nat -> closer (d / 2) k (sample e.1 e.2 n j) -> i ∈ found) /\
       (forall i, i ∈ found -> exists k j, U i k /\ (1 <= j <= n)%nat /\ close (3 * d / 2) k (sample e.1 e.2 n j))).

(** [c] is the mean of the segments [xs]. *)
Definition total (f : pixel * pixel -> Q) (xs : list (pixel * pixel)) : Q := foldr (fun x s => f x + s) 0 xs.
Definition mean_of (xs : list (pixel * pixel)) (c : pixel * pixel) : Prop :=
  let n := inject_Z (Z.of_nat (length xs)) in
  n * c.1.1 == total (fun x => x.1.1) xs /\ n * c.1.2 == total (fun x => x.1.2) xs /\
  n * c.2.1 == total (fun x => x.2.1) xs /\ n * c.2.2 == total (fun x => x.2.2) xs.

(** The features [fs] of the first image are a group with the mean segment [e]: the mean of the segments between the points
    where the lines of the features cross the border of [bb], rounded down.  The first point of a segment that joined the
    group is at most [d] away from that of the mean of the segments before. *)
Definition grouped (line_of : pixel -> Q * Q * Q) (d : Q) (ks1 : list pixel) (bb : pixel * pixel) (fs : list nat) (e : pixel * pixel) : Prop :=
  exists xs,
    Forall2 (fun f x => exists k a b, ks1 !! f = Some k /\ on_line (line_of k) a /\ on_border bb a /\
                          on_line (line_of k) b /\ on_border bb b /\ x = (rounded a, rounded b)) fs xs /\
    xs <> [] /\ mean_of xs e /\
    forall j x, xs !! j = Some x -> (0 < j)%nat ->
      exists c, mean_of (take j xs) c /\ sq_length (c.1, x.1) <= d * d.

(** The features of the second image without a match. *)
Definition free2 (ks2 : list pixel) (ms : list (nat * nat * Q)) (i : nat) (k : pixel) : Prop := ks2 !! i = Some k /\ ~ matched2 ms i.

(** Any 49 consecutive random numbers have two different values. *)
Definition varied (draw : nat -> nat) : Prop := forall t, exists i j, (i < 49)%nat /\ (j < 49)%nat /\ draw (t + i)%nat <> draw (t + j)%nat.

(** Coordinates of images with at most 65535 pixels. *)
Definition image_point (p : pixel) : Prop := 0 <= p.1 <= 65535 /\ 0 <= p.2 <= 65535.

(** The lexicographic order of pairs of points with integer coordinates. *)
Definition coordinates (e : pixel * pixel) : list Q := [e.1.1; e.1.2; e.2.1; e.2.2].
Fixpoint lex_lt (l l' : list Q) : Prop :=
  match l, l' with
  | a :: l, b :: l' => a < b \/ a == b /\ lex_lt l l'
  | _, _ => False
  end.
