(** What a user of the database on disk expects, stated on the history of events alone. *)
From Coq Require Import Ascii.
From stdpp Require Import gmap strings.
From Verif Require Import Base RocksDb_Model.
Local Open Scope string_scope.

Section spec.
Context {P F M : Type}.
Notation event := (event P F M).

(** The value last written under a name; the newest event comes first.  A call during which the process died
    counts as a write if its step had been taken. *)
Fixpoint last_prior (h : list event) (n : string) : option P :=
  match h with
  | [] => None
  | Call (PutPrior n' p) :: h' => if decide (n' = n) then Some p else last_prior h' n
  | Die (PutPrior n' p) (S _) :: h' => if decide (n' = n) then Some p else last_prior h' n
  | _ :: h' => last_prior h' n
  end.
Fixpoint last_features (h : list event) (n : string) : option F :=
  match h with
  | [] => None
  | Call (PutFeatures n' f) :: h' => if decide (n' = n) then Some f else last_features h' n
  | Die (PutFeatures n' f) (S _) :: h' => if decide (n' = n) then Some f else last_features h' n
  | _ :: h' => last_features h' n
  end.
Fixpoint last_match (h : list event) (n1 n2 : string) : option M :=
  match h with
  | [] => None
  | Call (PutMatch n1' n2' m) :: h' => if decide ((n1', n2') = (n1, n2)) then Some m else last_match h' n1 n2
  | Die (PutMatch n1' n2' m) (S _) :: h' =>
      if decide ((n1', n2') = (n1, n2)) then Some m else last_match h' n1 n2
  | Call (RemoveAllMatches _) :: _ => None
  | Die (RemoveAllMatches _) (S _) :: _ => None
  | _ :: h' => last_match h' n1 n2
  end.

(** The order of the events is one a program can produce: an object is constructed when there is none and
    used while there is one.  The result says whether there is one at the end. *)
Fixpoint lifecycle (alive : bool) (h : list event) : option bool :=
  match h with
  | [] => Some alive
  | Compact _ :: h' => lifecycle alive h'
  | Close :: h' => if alive then lifecycle false h' else None
  | Call (Construct _ _ _ _) :: h' => if alive then None else lifecycle true h'
  | Die (Construct _ _ _ _) _ :: h' => if alive then None else lifecycle false h'
  | Call _ :: h' => if alive then lifecycle true h' else None
  | Die _ _ :: h' => if alive then lifecycle false h' else None
  end.

(** The first constructor on a directory, which makes the database ([made] says that it exists), was not
    interrupted between making it and its last column family, and none of the creations failed. *)
Fixpoint well_made (made : bool) (h : list event) : Prop :=
  match h with
  | [] => True
  | Call (Construct _ okf okm okp) :: h' =>
      (made = true \/ (okf = true /\ okm = true /\ okp = true)) /\ well_made true h'
  | Die (Construct _ okf okm okp) k :: h' =>
      if made then well_made true h'
      else (k = 0 /\ well_made false h') \/
           (4 <= k /\ okf = true /\ okm = true /\ okp = true /\ well_made true h')
  | _ :: h' => well_made made h'
  end.

(** No removal of the matches was interrupted half way, and the column family came back each time. *)
Definition removal_done (e : event) : Prop :=
  match e with
  | Call (RemoveAllMatches ok) => ok = true
  | Die (RemoveAllMatches ok) k => k = 0 \/ (2 <= k /\ ok = true)
  | _ => True
  end.

(** No first name of a pair contains the separator. *)
Fixpoint no_slash (s : string) : Prop :=
  match s with
  | EmptyString => True
  | String c s' => c <> "/"%char /\ no_slash s'
  end.
Definition plain_pairs (e : event) : Prop :=
  match e with
  | Call (PutMatch n1 _ _) => no_slash n1
  | Die (PutMatch n1 _ _) _ => no_slash n1
  | _ => True
  end.
End spec.
