(** Independent specification of a least-recently-used cache: only the history of calls counts. *)
From stdpp Require Import gmap.
From Verif Require Import Base LRUCache_Model.

Section spec.
Context {K V : Type} `{Countable K} (fetch : K -> V) (max : nat).

Definition op_key (o : lru_op K V) : K := match o with Fetch k => k | Insert k _ => k end.

(** Histories are written with the latest call FIRST.  The distinct keys used, latest use first. *)
Fixpoint recent (h : list (lru_op K V)) : list K :=
  match h with
  | [] => []
  | o :: h' => op_key o :: filter (fun k => k ≠ op_key o) (recent h')
  end.

(** The keys in the cache: the [max] most recently used ones. *)
Definition cached (h : list (lru_op K V)) : list K := take max (recent h).

(** The value held for [k]: given by Insert, or by the fetch function on a miss. *)
Fixpoint held (h : list (lru_op K V)) (k : K) : option V :=
  match h with
  | [] => None
  | o :: h' =>
      if decide (k = op_key o) then
        match o with
        | Insert _ v => Some v
        | Fetch _ => Some (default (fetch k) (held h' k))
        end
      else if decide (k ∈ cached h) then held h' k else None
  end.

(** What a call answers after the history [h]: Insert of a cached key aborts. *)
Definition answer (h : list (lru_op K V)) (o : lru_op K V) : option (lru_res V) :=
  match o with
  | Fetch k => Some (RValue (default (fetch k) (held h k)))
  | Insert k _ => if decide (k ∈ cached h) then None else Some RDone
  end.

(** The answers of a sequence of calls after the history [h]; [None] when a call aborts. *)
Fixpoint answers (h : list (lru_op K V)) (ops : list (lru_op K V)) : option (list (lru_res V)) :=
  match ops with
  | [] => Some []
  | o :: ops' =>
      r ← answer h o;
      rs ← answers (o :: h) ops';
      Some (r :: rs)
  end.

Definition is_fetch (o : lru_op K V) : Prop := match o with Fetch _ => True | Insert _ _ => False end.
Global Instance is_fetch_dec o : Decision (is_fetch o).
Proof. destruct o; apply _. Defined.
(** The number of Fetch calls that found their key in the cache. *)
Fixpoint hits_of (h : list (lru_op K V)) : nat :=
  match h with
  | [] => 0
  | o :: h' => (if decide (is_fetch o /\ op_key o ∈ cached h') then 1 else 0) + hits_of h'
  end.
Definition fetches_of (h : list (lru_op K V)) : nat := length (filter is_fetch h).

End spec.
