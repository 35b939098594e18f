(** Specification and proofs for the in-memory features-and-matches database. *)
From stdpp Require Import gmap strings.
From Verif Require Import Base FeatureDb_Model.

Section spec.
Context {P F M : Type}.
Implicit Types (o : db_op P F M) (ops : list (db_op P F M)).

(** The value of the last Put for a key, in a history given latest call first. *)
Fixpoint last_prior ops (n : string) : option P :=
  match ops with
  | [] => None
  | PutPrior n' p :: ops' => if decide (n' = n) then Some p else last_prior ops' n
  | _ :: ops' => last_prior ops' n
  end.
Fixpoint last_features ops (n : string) : option F :=
  match ops with
  | [] => None
  | PutFeatures n' f :: ops' => if decide (n' = n) then Some f else last_features ops' n
  | _ :: ops' => last_features ops' n
  end.
Fixpoint last_match ops (n1 n2 : string) : option M :=
  match ops with
  | [] => None
  | PutMatch a b m :: ops' => if decide ((a, b) = (n1, n2)) then Some m else last_match ops' n1 n2
  | RemoveAllMatches :: _ => None
  | _ :: ops' => last_match ops' n1 n2
  end.
End spec.

Section proofs.
Context {P F M : Type} (image1 image2 : M -> string).
Implicit Types (o : db_op P F M) (ops : list (db_op P F M)) (d : db P F M).

Lemma history_lemma ops :
  let d := foldl db_apply db_new ops in
  (forall n, get_prior d n = or_die (last_prior (reverse ops) n)) /\
  (forall n, contains_prior d n = true <-> is_Some (last_prior (reverse ops) n)) /\
  (forall n, get_features d n = or_die (last_features (reverse ops) n)) /\
  (forall n, contains_features d n = true <-> is_Some (last_features (reverse ops) n)) /\
  (forall n1 n2, get_match d n1 n2 = or_die (last_match (reverse ops) n1 n2)).
Proof.
  assert (Hall : let d := foldl db_apply db_new ops in
    (forall n, db_priors d !! n = last_prior (reverse ops) n) /\
    (forall n, db_features d !! n = last_features (reverse ops) n) /\
    (forall n1 n2, db_matches d !! (n1, n2) = last_match (reverse ops) n1 n2)).
  { induction ops as [|o ops (IH1 & IH2 & IH3)] using rev_ind; [done|].
    rewrite foldl_app, reverse_snoc. cbn [foldl].
    destruct o as [n p|n f|a b m|]; cbn [db_apply put_prior put_features put_match remove_all_matches
      db_priors db_features db_matches last_prior last_features last_match].
    - split; [|done]. intros n'. case_decide as E.
      + subst. by rewrite lookup_insert.
      + by rewrite lookup_insert_ne.
    - split; [done|]. split; [|done]. intros n'. case_decide as E.
      + subst. by rewrite lookup_insert.
      + by rewrite lookup_insert_ne.
    - split; [done|]. split; [done|]. intros n1 n2. case_decide as E.
      + rewrite E. by rewrite lookup_insert.
      + by rewrite lookup_insert_ne.
    - split; [done|]. split; [done|]. intros n1 n2. by rewrite lookup_empty. }
  destruct Hall as (H1 & H2 & H3). unfold get_prior, contains_prior, get_features, contains_features, get_match.
  split_and!; intros; rewrite ?bool_decide_eq_true, ?H1, ?H2, ?H3; done.
Qed.

Lemma foldl_insert_list {K} `{Countable K} {A} (l : list (K * A)) (m : gmap K A) :
  NoDup l.*1 -> foldl (fun m np => <[np.1 := np.2]> m) m l = list_to_map l ∪ m.
Proof.
  revert m. induction l as [|[k a] l IH]; intros m; simpl.
  { by rewrite (left_id_L ∅ (∪)). }
  intros [Hk Hnd]%NoDup_cons. rewrite IH by done. rewrite <-insert_union_r.
  - by rewrite insert_union_l.
  - apply not_elem_of_list_to_map. done.
Qed.

Lemma priors_read (op : order (string * P)) (m m0 : gmap string P) :
  foldl (fun m np => <[np.1 := np.2]> m) m0
    (zip (fst <$> op (map_to_list m)) (snd <$> op (map_to_list m))) = m ∪ m0.
Proof.
  assert (zip (fst <$> op (map_to_list m)) (snd <$> op (map_to_list m)) = op (map_to_list m)) as ->.
  { generalize (op (map_to_list m)). intros l. induction l as [|[a b] l IH]; simpl; [done|]. by f_equal. }
  assert (Hnd : NoDup (op (map_to_list m)).*1).
  { rewrite (ord_perm op). apply NoDup_fst_map_to_list. }
  rewrite foldl_insert_list by done. f_equal.
  rewrite <-(list_to_map_to_list m) at 2. apply list_to_map_proper; [done|]. apply ord_perm.
Qed.

Lemma foldl_matches (l : list ((string * string) * M)) (m0 : gmap (string * string) M) :
  (forall k x, (k, x) ∈ l -> k = (image1 x, image2 x)) ->
  foldl (fun (m : gmap (string * string) M) x => <[(image1 x, image2 x) := x]> m) m0 (snd <$> l)
  = foldl (fun m np => <[np.1 := np.2]> m) m0 l.
Proof.
  revert m0. induction l as [|[k x] l IH]; intros m0 Hl; simpl; [done|].
  rewrite (Hl k x) by (by left). apply IH. intros. apply Hl. by right.
Qed.

Lemma roundtrip_lemma op om d d0 :
  (forall n1 n2 m, db_matches d !! (n1, n2) = Some m -> image1 m = n1 /\ image2 m = n2) ->
  read_file image1 image2 (write_file op om d) d0 =
  Ok (Db (db_priors d ∪ db_priors d0) (db_features d0) (db_matches d ∪ db_matches d0)).
Proof.
  intros Hk. unfold read_file, write_file.
  rewrite bool_decide_eq_true_2 by (by rewrite !fmap_length). cbn [check mbind outcome_bind].
  rewrite priors_read. do 2 f_equal.
  rewrite foldl_matches.
  - assert (Hnd : NoDup (om (map_to_list (db_matches d))).*1).
    { rewrite (ord_perm om). apply NoDup_fst_map_to_list. }
    rewrite foldl_insert_list by done. f_equal.
    rewrite <-(list_to_map_to_list (db_matches d)) at 2. apply list_to_map_proper; [done|]. apply ord_perm.
  - intros [n1 n2] x. rewrite (ord_perm om), elem_of_map_to_list. intros Hx. by destruct (Hk _ _ _ Hx) as [<- <-].
Qed.
End proofs.
