From Coq Require Import Ascii.
From stdpp Require Import gmap strings.
From Verif Require Import Base RocksDb_Model RocksDb_Spec.
Local Open Scope string_scope.

(** Logs. *)
Section logs.
Context {B : Type}.
Implicit Types (l : list (string * B)).

Lemma log_get_filter k k' l : k <> k' -> log_get k (filter (fun e => e.1 <> k') l) = log_get k l.
Proof.
  intros N. induction l as [|[a v] l IH]; [reflexivity|].
  rewrite filter_cons. cbn [fst]. destruct (decide (a <> k')) as [H|H].
  - cbn [log_get]. by rewrite IH.
  - cbn [log_get]. rewrite IH. apply dec_stable in H. subst a.
    rewrite bool_decide_eq_false_2; [reflexivity|congruence].
Qed.
Lemma log_get_compact k l : log_get k (log_compact l) = log_get k l.
Proof.
  induction l as [|[a v] l IH]; [reflexivity|]. cbn [log_compact log_get].
  destruct (decide (a = k)) as [->|N].
  - by rewrite bool_decide_eq_true_2.
  - rewrite bool_decide_eq_false_2 by exact N. rewrite log_get_filter by congruence. exact IH.
Qed.
Lemma log_get_Some k l : is_Some (log_get k l) <-> k ∈ l.*1.
Proof.
  induction l as [|[a v] l IH]; cbn.
  - split; [intros [? ?]; discriminate|intros H; by apply elem_of_nil in H].
  - rewrite elem_of_cons, <- IH. case_bool_decide as E.
    + split; [intros _; by left|intros _; eauto].
    + split; [by right|intros [->|?]; [by destruct E|done]].
Qed.
Lemma log_keys_elem o k l : k ∈ log_keys o l <-> is_Some (log_get k l).
Proof. unfold log_keys. by rewrite (ord_perm o), elem_of_remove_dups, log_get_Some. Qed.
Lemma log_keys_NoDup o l : NoDup (log_keys o l).
Proof. unfold log_keys. rewrite (ord_perm o). apply NoDup_remove_dups. Qed.
Lemma remove_dups_length (l : list string) : (length (remove_dups l) <= length l)%nat.
Proof. induction l; cbn; [lia|]. case_decide; cbn; lia. Qed.
Lemma log_keys_length o l : (length (log_keys o l) <= length l)%nat.
Proof.
  unfold log_keys. rewrite (ord_perm o). etrans; [apply remove_dups_length|]. by rewrite fmap_length.
Qed.
Lemma log_compact_NoDup l : NoDup ((log_compact l).*1).
Proof.
  induction l as [|[a v] l IH]; cbn; [constructor|]. apply NoDup_cons. split.
  - rewrite elem_of_list_fmap. intros ([b w] & -> & [H _]%elem_of_list_filter). by apply H.
  - revert IH. generalize (log_compact l). clear. intros l IH. induction l as [|[b w] l IHl]; [constructor|].
    cbn in IH. apply NoDup_cons in IH as [Hb IH]. rewrite filter_cons. case_decide; [|by apply IHl].
    cbn. apply NoDup_cons. split; [|by apply IHl]. intros H'. apply Hb.
    apply elem_of_list_fmap in H' as (e & E & [_ He]%elem_of_list_filter). apply elem_of_list_fmap. eauto.
Qed.
Lemma remove_dups_id (l : list string) : NoDup l -> remove_dups l = l.
Proof. induction 1 as [|x l H N IH]; cbn; [reflexivity|]. case_decide; [done|]. by rewrite IH. Qed.
Lemma log_keys_compact o l : length (log_keys o (log_compact l)) = length (log_compact l).
Proof.
  unfold log_keys. rewrite (ord_perm o), remove_dups_id by apply log_compact_NoDup. by rewrite fmap_length.
Qed.
End logs.

(** Names of pairs. *)
Lemma split_compose a b : no_slash a -> split_separator (compose a b) = Some (a, b).
Proof.
  unfold compose. induction a as [|c a IH]; intros H.
  - reflexivity.
  - destruct H as [Hc Ha]. change (String c a +:+ String separator b) with (String c (a +:+ String separator b)).
    cbn [split_separator]. rewrite bool_decide_eq_false_2 by exact Hc. rewrite IH by exact Ha. reflexivity.
Qed.
Lemma decompose_compose a b : no_slash a -> decompose (compose a b) = (a, b).
Proof. intros H. unfold decompose. by rewrite split_compose. Qed.
Lemma compose_inj a b a' b' : no_slash a -> no_slash a' -> compose a b = compose a' b' -> (a, b) = (a', b').
Proof. intros H H' E. rewrite <- (decompose_compose a b H), <- (decompose_compose a' b' H'). by rewrite E. Qed.

(** Handles. *)
Lemma slot_name_inj s s' : slot_name s = slot_name s' -> s = s'.
Proof. destruct s, s'; (reflexivity || discriminate). Qed.
Global Instance slot_dec : EqDecision slot.
Proof. solve_decision. Defined.
Lemma handle_set s s' x h : handle s (set_handle s' x h) = if decide (s = s') then x else handle s h.
Proof. destruct s, s'; reflexivity. Qed.
Lemma handle_attach s h n :
  handle s (attach h n) = if decide (n = slot_name s) then Some (slot_name s) else handle s h.
Proof.
  unfold attach. repeat case_bool_decide; subst; rewrite ?handle_set; destruct s; try reflexivity;
    cbn; by rewrite decide_False.
Qed.
Lemma handle_foldl s l h :
  handle s (foldl attach h l) =
  if decide (slot_name s ∈ l) then Some (slot_name s) else handle s h.
Proof.
  revert h. induction l as [|n l IH]; intros h; cbn [foldl].
  - rewrite decide_False; [reflexivity|apply not_elem_of_nil].
  - rewrite IH, handle_attach. destruct (decide (slot_name s ∈ l)) as [H|H].
    + rewrite decide_True; [reflexivity|by right].
    + destruct (decide (n = slot_name s)) as [E|E].
      * rewrite decide_True; [reflexivity|]. rewrite E. by left.
      * rewrite decide_False; [reflexivity|]. rewrite elem_of_cons. intros [?|?]; [by apply E|done].
Qed.

Section proofs.
Context {P F M B : Type} (cp : codec P B) (cf : codec F B) (cm : codec M B).
Notation event := (event P F M).
Notation call := (call P F M).
Notation step := (step cp cf cm).
Notation steps := (steps cp cf cm).
Notation world := (world B).
Implicit Types (w : world) (L : string -> option B).

Definition named w : Prop :=
  forall s h n, w_obj w = Some h -> handle s h = Some n -> n = slot_name s.

(** The column family of [s] is there, its contents are [L], and the object, if any, can reach it. *)
Definition St (s : slot) L w : Prop :=
  named w /\
  exists d, w_disk w = Some d /\
    (exists l, d !! slot_name s = Some l /\ forall k, log_get k l = L k) /\
    (forall h, w_obj w = Some h -> handle s h = Some (slot_name s)).

Lemma put_inv s k v w w' : put s k v w = Ok w' ->
  exists d h n, w_disk w = Some d /\ w_obj w = Some h /\ handle s h = Some n /\
    w' = World (Some (alter (cons (k, v)) n d)) (Some h).
Proof.
  unfold put. intros (d & Hd%or_ub_Ok & K)%bind_Ok. apply bind_Ok in K as (h & Hh%or_ub_Ok & K).
  apply bind_Ok in K as (n & Hn%or_ub_Ok & K). injection K as <-. exists d, h, n. auto.
Qed.
Lemma drop_inv w w' : drop_matches w = Ok w' ->
  exists d h n, w_disk w = Some d /\ w_obj w = Some h /\ h_matches h = Some n /\
    w' = World (Some (delete n d)) (Some h).
Proof.
  unfold drop_matches. intros (d & Hd%or_ub_Ok & K)%bind_Ok. apply bind_Ok in K as (h & Hh%or_ub_Ok & K).
  apply bind_Ok in K as (n & Hn%or_ub_Ok & K). injection K as <-. exists d, h, n. auto.
Qed.
Lemma create_inv s ok w w' : create s ok w = Ok w' ->
  exists d h, w_disk w = Some d /\ w_obj w = Some h /\
    ((ok = true /\ d !! slot_name s = None /\
      w' = World (Some (<[slot_name s := []]> d)) (Some (set_handle s (Some (slot_name s)) h))) \/
     ((ok = false \/ is_Some (d !! slot_name s)) /\ w' = World (Some d) (Some (set_handle s None h)))).
Proof.
  unfold create. intros (d & Hd%or_ub_Ok & K)%bind_Ok. apply bind_Ok in K as (h & Hh%or_ub_Ok & K).
  exists d, h. split; [done|]. split; [done|]. destruct ok; cbn in K.
  - case_bool_decide as E; cbn in K; injection K as <-; [by right; split; [right|]|].
    left. split; [done|]. split; [|done]. by apply eq_None_not_Some.
  - injection K as <-. right. by split; [left|].
Qed.
Lemma open_inv lo w w' : open lo w = Ok w' ->
  w_obj w = None /\
  ((w_disk w = None /\ w' = World (Some {["default" := []]}) (Some no_handles)) \/
   (exists d, w_disk w = Some d /\
      w' = World (Some d) (Some (foldl attach no_handles (lo ((map_to_list d).*1)))))).
Proof.
  unfold open. destruct (w_obj w); [discriminate|]. intros K. split; [done|].
  destruct (w_disk w) as [d|]; injection K as <-; eauto.
Qed.

Lemma named_set s h x (D : option (gmap string (list (string * B)))) :
  (forall s h' n, Some h = Some h' -> handle s h' = Some n -> n = slot_name s) ->
  (x = None \/ x = Some (slot_name s)) ->
  named (World D (Some (set_handle s x h))).
Proof.
  intros N Hx s' h' n. cbn [w_obj]. intros [= <-]. rewrite handle_set. case_decide as E.
  - subst s'. destruct Hx as [->| ->]; [discriminate|]. by intros [= <-].
  - intros H. by eapply N.
Qed.
Lemma named_attach names (D : option (gmap string (list (string * B)))) :
  named (World D (Some (foldl attach no_handles names))).
Proof.
  intros s h n. cbn [w_obj]. intros [= <-]. rewrite handle_foldl. case_decide.
  - by intros [= <-].
  - by destruct s.
Qed.
Lemma named_none (D : option (gmap string (list (string * B)))) : named (World D None).
Proof. intros s h n. discriminate. Qed.

Lemma put_same s k v L w w' : St s L w -> put s k v w = Ok w' ->
  St s (fun k' => if decide (k = k') then Some v else L k') w'.
Proof.
  intros (N & d & Hd & (l & Hl & HL) & Hh) (d' & h & n & Hd' & Ho & Hn & ->)%put_inv.
  rewrite Hd in Hd'. injection Hd' as <-. pose proof (Hh h Ho) as E. rewrite E in Hn. injection Hn as <-.
  split; [intros s' h' n' Q; by apply (N s' h' n'); rewrite Ho|].
  eexists. split; [reflexivity|]. split.
  - exists ((k, v) :: l). split; [by rewrite lookup_alter, Hl|]. intros k'. cbn [log_get]. rewrite HL.
    destruct (decide (k = k')); [by rewrite bool_decide_eq_true_2|by rewrite bool_decide_eq_false_2].
  - intros h'. cbn [w_obj]. intros [= <-]. exact E.
Qed.
Lemma put_other s s' k v L w w' : s <> s' -> St s L w -> put s' k v w = Ok w' -> St s L w'.
Proof.
  intros NE (N & d & Hd & (l & Hl & HL) & Hh) (d' & h & n & Hd' & Ho & Hn & ->)%put_inv.
  rewrite Hd in Hd'. injection Hd' as <-. pose proof (N s' h n Ho Hn) as ->.
  split; [intros s1 h' n' Q; by apply (N s1 h' n'); rewrite Ho|].
  eexists. split; [reflexivity|]. split.
  - exists l. split; [|done]. rewrite lookup_alter_ne; [done|]. intros E. by apply slot_name_inj in E.
  - intros h' Q. apply Hh. rewrite Ho. exact Q.
Qed.
Lemma drop_other s L w w' : s <> SMatches -> St s L w -> drop_matches w = Ok w' -> St s L w'.
Proof.
  intros NE (N & d & Hd & (l & Hl & HL) & Hh) (d' & h & n & Hd' & Ho & Hn & ->)%drop_inv.
  rewrite Hd in Hd'. injection Hd' as <-. pose proof (N SMatches h n Ho Hn) as ->.
  split; [intros s1 h' n' Q; by apply (N s1 h' n'); rewrite Ho|].
  eexists. split; [reflexivity|]. split.
  - exists l. split; [|done]. rewrite lookup_delete_ne; [done|]. intros E. by apply slot_name_inj in E.
  - intros h' Q. apply Hh. rewrite Ho. exact Q.
Qed.
Lemma create_other s s' ok L w w' : s <> s' -> St s L w -> create s' ok w = Ok w' -> St s L w'.
Proof.
  intros NE (N & d & Hd & (l & Hl & HL) & Hh) (d' & h & Hd' & Ho & K)%create_inv.
  rewrite Hd in Hd'. injection Hd' as <-.
  assert (Nh : forall s h' n, Some h = Some h' -> handle s h' = Some n -> n = slot_name s).
  { intros s1 h1 n1 Q. apply (N s1 h1 n1). by rewrite Ho. }
  assert (Hs : forall x h', Some (set_handle s' x h) = Some h' -> handle s h' = Some (slot_name s)).
  { intros x h' [= <-]. rewrite handle_set, decide_False by exact NE. by apply Hh. }
  destruct K as [(_ & Hn & ->)|(_ & ->)].
  - split; [apply named_set; [exact Nh|by right]|]. eexists. split; [reflexivity|]. split; [|apply Hs].
    exists l. split; [|done]. rewrite lookup_insert_ne; [done|]. intros E. by apply slot_name_inj in E.
  - split; [apply named_set; [exact Nh|by left]|]. eexists. split; [reflexivity|]. split; [|apply Hs]. eauto.
Qed.
Lemma open_St lo s L w w' : St s L w -> open lo w = Ok w' -> St s L w'.
Proof.
  intros (N & d & Hd & (l & Hl & HL) & Hh) (Ho & [[D _]|(d' & D & ->)])%open_inv; rewrite Hd in D;
    [discriminate|injection D as <-].
  split; [apply named_attach|]. eexists. split; [reflexivity|]. split; [eauto|].
  intros h. cbn [w_obj]. intros [= <-]. rewrite handle_foldl, decide_True; [reflexivity|].
  rewrite (ord_perm lo). apply elem_of_list_fmap. exists (slot_name s, l). split; [done|].
  by apply elem_of_map_to_list.
Qed.
Lemma close_St s L w : St s L w -> St s L (World (w_disk w) None).
Proof.
  intros (N & d & Hd & Hl & Hh). split; [apply named_none|]. exists d. split; [done|]. split; [done|].
  intros h. discriminate.
Qed.
Lemma compact_St s s' L w : St s L w -> St s L (World (alter log_compact (slot_name s') <$> w_disk w) (w_obj w)).
Proof.
  intros (N & d & Hd & (l & Hl & HL) & Hh). split; [exact N|]. rewrite Hd. eexists. split; [reflexivity|].
  split; [|exact Hh]. destruct (decide (s = s')) as [<-|NE].
  - exists (log_compact l). split; [by rewrite lookup_alter, Hl|]. intros k. by rewrite log_get_compact.
  - exists l. split; [|done]. rewrite lookup_alter_ne; [done|]. intros E. by apply slot_name_inj in E.
Qed.
Lemma remove_matches w w1 w' : named w -> drop_matches w = Ok w1 -> create SMatches true w1 = Ok w' ->
  St SMatches (fun _ => None) w'.
Proof.
  intros N (d & h & n & Hd & Ho & Hn & ->)%drop_inv (d' & h' & Hd' & Ho' & K)%create_inv.
  pose proof (N SMatches h n Ho Hn) as ->. cbn [w_disk w_obj] in *. injection Hd' as <-. injection Ho' as <-.
  destruct K as [(_ & _ & ->)|([?|[x Hx]] & _)]; [|discriminate|by rewrite lookup_delete in Hx].
  split.
  - apply named_set; [|by right]. intros s1 h1 n1 Q. apply (N s1 h1 n1). by rewrite Ho.
  - eexists. split; [reflexivity|]. split.
    + exists []. split; [by rewrite lookup_insert|done].
    + intros h1. cbn [w_obj]. intros [= <-]. reflexivity.
Qed.

(** A new database. *)
Lemma construct_new lo w w' : w_disk w = None ->
  run_list [open lo; create SFeatures true; create SMatches true; create SPriors true] w = Ok w' ->
  forall s, St s (fun _ => None) w'.
Proof.
  intros Hd K. unfold run_list in K. cbn [run_steps] in K.
  apply bind_Ok in K as (w1 & K1 & K). apply open_inv in K1 as [_ [[_ ->]|(d & D & _)]]; [|congruence].
  vm_compute in K. injection K as <-.
  intros s. split.
  - intros s' h n. cbn [w_obj]. intros [= <-]. destruct s'; intros [= <-]; reflexivity.
  - eexists. split; [reflexivity|]. split.
    + exists []. split; [|done]. by destruct s.
    + intros h. cbn [w_obj]. intros [= <-]. by destruct s.
Qed.
Lemma construct_new_ok lo w : w_disk w = None -> w_obj w = None ->
  exists w', run_list [open lo; create SFeatures true; create SMatches true; create SPriors true] w = Ok w' /\
    is_Some (w_obj w').
Proof.
  intros Hd Ho. destruct w as [D O]. cbn in Hd, Ho. subst D O. eexists. split; [vm_compute; reflexivity|].
  eexists. reflexivity.
Qed.

(** The contents that a history leaves, newest event first. *)
Inductive effect := EPut (k : string) (v : B) | EClear | ENone.
Definition call_effect (s : slot) (c : call) : effect :=
  match c with
  | PutPrior n p => if decide (s = SPriors) then EPut n (enc cp p) else ENone
  | PutFeatures n f => if decide (s = SFeatures) then EPut n (enc cf f) else ENone
  | PutMatch n1 n2 m => if decide (s = SMatches) then EPut (compose n1 n2) (enc cm m) else ENone
  | RemoveAllMatches _ => if decide (s = SMatches) then EClear else ENone
  | Construct _ _ _ _ => ENone
  end.
Definition event_effect (s : slot) (e : event) : effect :=
  match e with
  | Call c => call_effect s c
  | Die c (S _) => call_effect s c
  | _ => ENone
  end.
Definition apply_effect (f : effect) L : string -> option B :=
  match f with
  | EPut k v => fun k' => if decide (k = k') then Some v else L k'
  | EClear => fun _ => None
  | ENone => L
  end.
Fixpoint contents (s : slot) (h : list event) : string -> option B :=
  match h with
  | [] => fun _ => None
  | e :: h' => apply_effect (event_effect s e) (contents s h')
  end.

Definition Inv (s : slot) L w : Prop :=
  (w_disk w = None /\ w_obj w = None /\ forall k, L k = None) \/ St s L w.
Definition made w : bool := bool_decide (is_Some (w_disk w)).

Lemma well_made_one b (e : event) h : well_made b (e :: h) -> well_made b [e].
Proof.
  destruct e as [[]| |[] k|]; cbn [well_made]; try tauto.
  destruct b; tauto.
Qed.

Lemma made_put s k v w w' : put s k v w = Ok w' -> made w = true /\ made w' = true.
Proof.
  intros (d & h & n & Hd & _ & _ & ->)%put_inv. unfold made. rewrite Hd. done.
Qed.
Lemma made_drop w w' : drop_matches w = Ok w' -> made w = true /\ made w' = true.
Proof.
  intros (d & h & n & Hd & _ & _ & ->)%drop_inv. unfold made. rewrite Hd. done.
Qed.
Lemma made_create s ok w w' : create s ok w = Ok w' -> made w = true /\ made w' = true.
Proof.
  intros (d & h & Hd & _ & [(_ & _ & ->)|(_ & ->)])%create_inv; unfold made; rewrite Hd; done.
Qed.
Lemma made_open lo w w' : open lo w = Ok w' -> made w' = true.
Proof. intros (_ & [[_ ->]|(d & _ & ->)])%open_inv; reflexivity. Qed.

Lemma well_made_step w e w' h : well_made (made w) (e :: h) -> step w e = Ok w' -> well_made (made w') h.
Proof.
  destruct e as [c| |c k|s]; cbn [RocksDb_Model.step].
  - destruct c as [lo okf okm okp|n p|n f|n1 n2 m|ok]; cbn [well_made steps]; unfold run_list;
      cbn [run_steps].
    + intros [_ H]. enough (forall l w1, made w1 = true -> (forall f, f ∈ l -> exists s ok, f = create s ok) ->
        run_steps (fun w f => f w) w1 l = Ok w' -> made w' = true) as Q.
      { intros K. replace (made w') with true; [exact H|symmetry]. destruct (w_disk w).
        - apply bind_Ok in K as (w1 & K1 & K). apply (Q [] w1); [by eapply made_open| |exact K].
          intros f Hf. by apply elem_of_nil in Hf.
        - cbn [run_steps] in K. apply bind_Ok in K as (w1 & K1 & K).
          eapply (Q [_; _; _] w1); [by eapply made_open| |exact K].
          intros f. rewrite !elem_of_cons, elem_of_nil. intros [->|[->|[->|[]]]]; eauto. }
      intros l. induction l as [|f l IH]; intros w1 H1 Hl; cbn [run_steps].
      * by intros [= <-].
      * intros (w2 & K1 & K2)%bind_Ok. destruct (Hl f) as (s & ok & ->); [by left|].
        eapply (IH w2); [by eapply made_create| |exact K2]. intros g Hg. apply Hl. by right.
    + intros H (w1 & [Q1 Q2]%made_put & [= <-])%bind_Ok. by rewrite Q1 in H; rewrite Q2.
    + intros H (w1 & [Q1 Q2]%made_put & [= <-])%bind_Ok. by rewrite Q1 in H; rewrite Q2.
    + intros H (w1 & [Q1 Q2]%made_put & [= <-])%bind_Ok. by rewrite Q1 in H; rewrite Q2.
    + intros H (w1 & [Q1 Q2]%made_drop & K)%bind_Ok. apply bind_Ok in K as (w2 & [_ Q3]%made_create & K).
      injection K as <-. by rewrite Q1 in H; rewrite Q3.
  - cbn [well_made]. intros H [= <-]. exact H.
  - intros H (w1 & K & [= <-])%bind_Ok. change (made (World (w_disk w1) None)) with (made w1).
    assert (E : forall l w2 w3, Forall (fun f => forall w4 w5, f w4 = Ok w5 -> made w5 = true) l ->
        made w2 = true -> run_list l w2 = Ok w3 -> made w3 = true).
    { unfold run_list. induction l as [|f l IH]; intros w2 w3 Hl H2; cbn [run_steps].
      - by intros [= <-].
      - intros (w4 & K1 & K2)%bind_Ok. inversion_clear Hl as [|? ? Hf Hl'].
        exact (IH _ _ Hl' (Hf _ _ K1) K2). }
    assert (A : forall w0, Forall (fun f => forall w4 w5, f w4 = Ok w5 -> made w5 = true) (steps c w0)).
    { intros w0. destruct c; cbn [steps]; repeat constructor; try (intros w4 w5 Q).
      - destruct (w_disk w0); repeat constructor; intros w4 w5 Q;
          first [by eapply made_open|by eapply made_create].
      - by eapply made_put.
      - by eapply made_put.
      - by eapply made_put.
      - by eapply made_drop.
      - by eapply made_create. }
    destruct (made w) eqn:Mw.
    { replace (made w1) with true.
      - destruct c; exact H.
      - symmetry. eapply E; [|exact Mw|exact K]. apply Forall_take, A. }
    destruct k as [|k].
    { cbn in K. injection K as <-. rewrite Mw. destruct c; try exact H. cbn [well_made] in H.
      destruct H as [[_ H]|[? _]]; [exact H|lia]. }
    assert (Dw : w_disk w = None).
    { unfold made in Mw. apply bool_decide_eq_false in Mw. by apply eq_None_not_Some. }
    assert (M1 : made w1 = true).
    { destruct (steps c w) as [|f l] eqn:Es.
      - destruct c; cbn [steps] in Es; try discriminate. rewrite Dw in Es. discriminate.
      - cbn [take] in K. unfold run_list in K. cbn [run_steps] in K. apply bind_Ok in K as (w2 & K1 & K2).
        pose proof (A w) as Aw. rewrite Es in Aw. inversion_clear Aw as [|? ? Hf Hl'].
        eapply E; [|exact (Hf _ _ K1)|exact K2]. by apply Forall_take. }
    rewrite M1. destruct c as [lo okf okm okp|n p|n f|n1 n2 m|ok];
      [|exfalso; cbn [steps take] in K; unfold run_list in K; cbn [run_steps] in K..].
    + cbn [well_made] in H. destruct H as [[? _]|(_ & _ & _ & _ & H)]; [lia|exact H].
    + apply bind_Ok in K as (w2 & [Q _]%made_put & _). congruence.
    + apply bind_Ok in K as (w2 & [Q _]%made_put & _). congruence.
    + apply bind_Ok in K as (w2 & [Q _]%made_put & _). congruence.
    + apply bind_Ok in K as (w2 & [Q _]%made_drop & _). congruence.
  - cbn [well_made]. intros H [= <-]. unfold made in *. cbn [w_disk].
    destruct (w_disk w); exact H.
Qed.

(** One event. *)
Lemma step_Inv s L w e w' :
  Inv s L w -> well_made (made w) [e] -> (s = SMatches -> removal_done e) -> step w e = Ok w' ->
  Inv s (apply_effect (event_effect s e) L) w'.
Proof.
  intros HI HW HR. destruct e as [c| |c k|s']; cbn [RocksDb_Model.step event_effect].
  - intros K. destruct c as [lo okf okm okp|n p|n f|n1 n2 m|ok]; cbn [steps] in K; unfold run_list in K.
    + right. cbn [call_effect apply_effect]. destruct HI as [(Hd & Ho & HL)|HS].
      * rewrite Hd in K. cbn [well_made] in HW. unfold made in HW. rewrite Hd in HW. cbn in HW.
        destruct HW as [[?|(-> & -> & ->)] _]; [discriminate|].
        pose proof (construct_new lo w w' Hd K s) as (N & d & D & (l & Hl & E) & Hh).
        split; [exact N|]. exists d. split; [exact D|]. split; [|exact Hh]. exists l. split; [exact Hl|].
        intros k. by rewrite E, HL.
      * pose proof HS as (_ & d & D & _). rewrite D in K. cbn [run_steps] in K.
        apply bind_Ok in K as (w1 & K1 & [= <-]). by eapply open_St.
    + cbn [run_steps] in K. apply bind_Ok in K as (w1 & K1 & [= <-]). right.
      destruct HI as [(Hd & _)|HS]; [apply put_inv in K1 as (? & ? & ? & D & _); congruence|].
      cbn [call_effect]. case_decide as E; [subst s; by eapply put_same|by eapply put_other].
    + cbn [run_steps] in K. apply bind_Ok in K as (w1 & K1 & [= <-]). right.
      destruct HI as [(Hd & _)|HS]; [apply put_inv in K1 as (? & ? & ? & D & _); congruence|].
      cbn [call_effect]. case_decide as E; [subst s; by eapply put_same|by eapply put_other].
    + cbn [run_steps] in K. apply bind_Ok in K as (w1 & K1 & [= <-]). right.
      destruct HI as [(Hd & _)|HS]; [apply put_inv in K1 as (? & ? & ? & D & _); congruence|].
      cbn [call_effect]. case_decide as E; [subst s; by eapply put_same|by eapply put_other].
    + cbn [run_steps] in K. apply bind_Ok in K as (w1 & K1 & K). apply bind_Ok in K as (w2 & K2 & [= <-]).
      right. destruct HI as [(Hd & _)|HS]; [apply drop_inv in K1 as (? & ? & ? & D & _); congruence|].
      cbn [call_effect]. case_decide as E.
      * specialize (HR E). cbn in HR. subst ok. subst s. eapply remove_matches; [apply HS|exact K1|exact K2].
      * eapply create_other; [exact E| |exact K2]. by eapply drop_other.
  - intros [= <-]. cbn [apply_effect]. destruct HI as [(Hd & _ & HL)|HS]; [left; auto|right; by apply close_St].
  - intros (w1 & K & [= <-])%bind_Ok. destruct k as [|k].
    { cbn in K. injection K as <-. cbn [apply_effect].
      destruct HI as [(Hd & _ & HL)|HS]; [left; auto|right; by apply close_St]. }
    destruct c as [lo okf okm okp|n p|n f|n1 n2 m|ok]; cbn [steps] in K; unfold run_list in K.
    + right. cbn [call_effect apply_effect]. destruct HI as [(Hd & Ho & HL)|HS].
      * rewrite Hd in K. cbn [well_made] in HW. unfold made in HW. rewrite Hd in HW. cbn in HW.
        destruct HW as [[? _]|(Hk & -> & -> & -> & _)]; [discriminate|].
        rewrite take_ge in K by (cbn; lia).
        pose proof (construct_new lo w w1 Hd K s) as (N & d & D & (l & Hl & E) & Hh).
        split; [apply named_none|]. exists d. split; [exact D|]. split; [|intros h; discriminate].
        exists l. split; [exact Hl|]. intros k'. by rewrite E, HL.
      * pose proof HS as (_ & d & D & _). rewrite D in K. cbn [take run_steps] in K. rewrite take_nil in K.
        apply bind_Ok in K as (w2 & K1 & [= <-]). apply close_St. by eapply open_St.
    + cbn [take run_steps] in K. rewrite take_nil in K. apply bind_Ok in K as (w2 & K1 & [= <-]). right.
      apply close_St.
      destruct HI as [(Hd & _)|HS]; [apply put_inv in K1 as (? & ? & ? & D & _); congruence|].
      cbn [call_effect]. case_decide as E; [subst s; by eapply put_same|by eapply put_other].
    + cbn [take run_steps] in K. rewrite take_nil in K. apply bind_Ok in K as (w2 & K1 & [= <-]). right.
      apply close_St.
      destruct HI as [(Hd & _)|HS]; [apply put_inv in K1 as (? & ? & ? & D & _); congruence|].
      cbn [call_effect]. case_decide as E; [subst s; by eapply put_same|by eapply put_other].
    + cbn [take run_steps] in K. rewrite take_nil in K. apply bind_Ok in K as (w2 & K1 & [= <-]). right.
      apply close_St.
      destruct HI as [(Hd & _)|HS]; [apply put_inv in K1 as (? & ? & ? & D & _); congruence|].
      cbn [call_effect]. case_decide as E; [subst s; by eapply put_same|by eapply put_other].
    + cbn [take run_steps] in K. apply bind_Ok in K as (w2 & K1 & K). right. apply close_St.
      destruct HI as [(Hd & _)|HS]; [apply drop_inv in K1 as (? & ? & ? & D & _); congruence|].
      cbn [call_effect]. case_decide as E.
      * specialize (HR E). cbn in HR. destruct HR as [?|[Hk ->]]; [discriminate|].
        destruct k as [|k]; [lia|]. cbn [take run_steps] in K. rewrite take_nil in K.
        apply bind_Ok in K as (w3 & K2 & [= <-]). subst s.
        eapply remove_matches; [apply HS|exact K1|exact K2].
      * destruct k as [|k]; cbn [take run_steps] in K.
        -- injection K as <-. by eapply drop_other.
        -- rewrite take_nil in K. apply bind_Ok in K as (w3 & K2 & [= <-]).
           eapply create_other; [exact E| |exact K2]. by eapply drop_other.
  - intros [= <-]. cbn [apply_effect]. destruct HI as [(Hd & Ho & HL)|HS].
    + left. rewrite Hd. auto.
    + right. by apply compact_St.
Qed.

Lemma run_Inv s h : forall past w w',
  Inv s (contents s past) w -> well_made (made w) h -> (s = SMatches -> Forall removal_done h) ->
  run_steps step w h = Ok w' -> Inv s (contents s (reverse h ++ past)) w'.
Proof.
  induction h as [|e h IH]; intros past w w' HI HW HR; cbn [run_steps].
  - by intros [= <-].
  - intros (w1 & K1 & K2)%bind_Ok. rewrite reverse_cons, <- app_assoc.
    eapply (IH (e :: past) w1).
    + eapply step_Inv; [exact HI|by eapply well_made_one| |exact K1].
      intros E. specialize (HR E). by inversion_clear HR.
    + by eapply well_made_step.
    + intros E. specialize (HR E). by inversion_clear HR.
    + exact K2.
Qed.

(** The specification's last writes and the contents. *)
Lemma contents_prior h n : contents SPriors h n = enc cp <$> last_prior h n.
Proof.
  induction h as [|[[]| |[] [|k]|] h IH]; try reflexivity; try exact IH;
    cbn -[decide]; rewrite decide_True by reflexivity; cbn -[decide]; case_decide; (reflexivity || exact IH).
Qed.
Lemma contents_features h n : contents SFeatures h n = enc cf <$> last_features h n.
Proof.
  induction h as [|[[]| |[] [|k]|] h IH]; try reflexivity; try exact IH;
    cbn -[decide]; rewrite decide_True by reflexivity; cbn -[decide]; case_decide; (reflexivity || exact IH).
Qed.
Lemma contents_match h n1 n2 : Forall plain_pairs h -> no_slash n1 ->
  contents SMatches h (compose n1 n2) = enc cm <$> last_match h n1 n2.
Proof.
  intros Hp H1. induction h as [|[[]| |[] [|k]|] h IH]; inversion_clear Hp as [|? ? He Hh]; try reflexivity;
    try exact (IH Hh); cbn -[decide compose];
    rewrite (decide_True (P := SMatches = SMatches)) by reflexivity; cbn [apply_effect]; cbn in He.
  - destruct (decide ((n0, n3) = (n1, n2))) as [E|E].
    + injection E as -> ->. rewrite decide_True by reflexivity. reflexivity.
    + rewrite decide_False; [exact (IH Hh)|]. intros Q. apply E. by apply compose_inj in Q.
  - destruct (decide ((n0, n3) = (n1, n2))) as [E|E].
    + injection E as -> ->. rewrite decide_True by reflexivity. reflexivity.
    + rewrite decide_False; [exact (IH Hh)|]. intros Q. apply E. by apply compose_inj in Q.
Qed.
(** Every key of the matches is a pair that was put. *)
Lemma contents_match_keys h k : Forall plain_pairs h -> is_Some (contents SMatches h k) ->
  exists n1 n2, no_slash n1 /\ k = compose n1 n2.
Proof.
  intros Hp. induction h as [|[[]| |[] [|j]|] h IH]; inversion_clear Hp as [|? ? He Hh];
    try (intros [? ?]; discriminate); try exact (IH Hh); cbn -[decide compose];
    rewrite (decide_True (P := SMatches = SMatches)) by reflexivity; cbn [apply_effect]; cbn in He.
  - case_decide as E; [subst k; eauto|exact (IH Hh)].
  - case_decide as E; [subst k; eauto|exact (IH Hh)].
Qed.

(** Reading. *)
Lemma the_log_St s L w : St s L w -> is_Some (w_obj w) ->
  exists l, the_log s w = Ok l /\ forall k, log_get k l = L k.
Proof.
  intros (_ & d & Hd & (l & Hl & HL) & Hh) [h Ho]. exists l. split; [|exact HL].
  unfold the_log. rewrite Hd, Ho. cbn. rewrite (Hh h Ho). cbn. by rewrite Hl.
Qed.

(** No undefined behaviour, no abort. *)
Lemma put_ok s k v L w : St s L w -> is_Some (w_obj w) ->
  exists w', put s k v w = Ok w' /\ is_Some (w_obj w').
Proof.
  intros (_ & d & Hd & _ & Hh) [h Ho]. unfold put. rewrite Hd, Ho. cbn. rewrite (Hh h Ho). cbn. eauto.
Qed.
Lemma remove_ok L w : St SMatches L w -> is_Some (w_obj w) ->
  exists w1 w', drop_matches w = Ok w1 /\ create SMatches true w1 = Ok w' /\ is_Some (w_obj w').
Proof.
  intros (_ & d & Hd & _ & Hh) [h Ho]. unfold drop_matches. rewrite Hd, Ho. cbn.
  pose proof (Hh h Ho) as E. cbn in E. rewrite E. cbn. eexists _, _. split; [reflexivity|].
  unfold create. cbn [w_disk w_obj or_ub mbind outcome_bind]. rewrite lookup_delete. cbn. eauto.
Qed.
Lemma open_ok lo w : w_obj w = None -> exists w', open lo w = Ok w' /\ is_Some (w_obj w').
Proof. intros Ho. unfold open. rewrite Ho. destruct (w_disk w); eauto. Qed.
Lemma run_take k l w w' : run_list l w = Ok w' -> exists w1, run_list (take k l) w = Ok w1.
Proof.
  unfold run_list. rewrite <- (take_drop k l) at 1. rewrite run_steps_app.
  intros (w1 & K & _)%bind_Ok. eauto.
Qed.

Definition alive w : bool := bool_decide (is_Some (w_obj w)).
Lemma alive_Some w b : alive w = b -> if b then is_Some (w_obj w) else w_obj w = None.
Proof.
  unfold alive. intros <-. case_bool_decide as E; [exact E|]. by apply eq_None_not_Some.
Qed.

Lemma call_ok c w : (forall s, exists L, Inv s L w) ->
  well_made (made w) [Call c] -> removal_done (Call c) ->
  (match c with Construct _ _ _ _ => w_obj w = None | _ => is_Some (w_obj w) end) ->
  exists w', run_list (steps c w) w = Ok w' /\ is_Some (w_obj w').
Proof.
  intros HI HW HR Hob.
  assert (HS : is_Some (w_obj w) -> forall s, exists L, St s L w).
  { intros [h Hh] s. destruct (HI s) as (L & [(_ & Ho & _)|S]); [congruence|eauto]. }
  destruct c as [lo okf okm okp|n p|n f|n1 n2 m|ok]; cbn [steps].
  - destruct (w_disk w) as [d|] eqn:Hd.
    + destruct (open_ok lo w Hob) as (w' & K & Q). exists w'. split; [|exact Q].
      unfold run_list. cbn [run_steps]. by rewrite K.
    + cbn [well_made] in HW. unfold made in HW. rewrite Hd in HW. cbn in HW.
      destruct HW as [[?|(-> & -> & ->)] _]; [discriminate|]. by apply construct_new_ok.
  - destruct (HS Hob SPriors) as (L & S). destruct (put_ok _ n (enc cp p) _ _ S Hob) as (w' & K & Q).
    exists w'. split; [|exact Q]. unfold run_list. cbn [run_steps]. by rewrite K.
  - destruct (HS Hob SFeatures) as (L & S). destruct (put_ok _ n (enc cf f) _ _ S Hob) as (w' & K & Q).
    exists w'. split; [|exact Q]. unfold run_list. cbn [run_steps]. by rewrite K.
  - destruct (HS Hob SMatches) as (L & S).
    destruct (put_ok _ (compose n1 n2) (enc cm m) _ _ S Hob) as (w' & K & Q).
    exists w'. split; [|exact Q]. unfold run_list. cbn [run_steps]. by rewrite K.
  - destruct (HS Hob SMatches) as (L & S). cbn in HR. subst ok.
    destruct (remove_ok _ _ S Hob) as (w1 & w' & K1 & K2 & Q).
    exists w'. split; [|exact Q]. unfold run_list. cbn [run_steps]. rewrite K1. cbn. by rewrite K2.
Qed.

Lemma die_ok c k w : (forall s, exists L, Inv s L w) ->
  well_made (made w) [Die c k] -> removal_done (Die c k) ->
  (match c with Construct _ _ _ _ => w_obj w = None | _ => is_Some (w_obj w) end) ->
  exists w', run_list (take k (steps c w)) w = Ok w'.
Proof.
  intros HI HW HR Hob. destruct k as [|k]; [cbn; eauto|].
  assert (G : forall c', steps c' w = steps c w -> well_made (made w) [Call c'] -> removal_done (Call c') ->
    match c' with Construct _ _ _ _ => w_obj w = None | _ => is_Some (w_obj w) end ->
    exists w', run_list (take (S k) (steps c w)) w = Ok w').
  { intros c' E H1 H2 H3. destruct (call_ok c' w HI H1 H2 H3) as (w' & K & _). rewrite E in K.
    by eapply run_take. }
  destruct c as [lo okf okm okp|n p|n f|n1 n2 m|ok].
  - destruct (made w) eqn:Mw.
    + apply (G (Construct lo okf okm okp)); [done| |done|done]. cbn. auto.
    + cbn [well_made] in HW. destruct HW as [[? _]|(_ & -> & -> & -> & _)]; [discriminate|].
      apply (G (Construct lo true true true)); [done| |done|done]. cbn. auto.
  - by apply (G (PutPrior n p)).
  - by apply (G (PutFeatures n f)).
  - by apply (G (PutMatch n1 n2 m)).
  - cbn in HR. destruct HR as [?|[_ ->]]; [discriminate|]. by apply (G (RemoveAllMatches true)).
Qed.

Lemma run_ok h : forall w b, (forall s, exists L, Inv s L w) ->
  well_made (made w) h -> Forall removal_done h -> lifecycle (alive w) h = Some b ->
  exists w', run_steps step w h = Ok w' /\ alive w' = b.
Proof.
  induction h as [|e h IH]; intros w b HI HW HR HL; cbn [run_steps].
  - cbn in HL. injection HL as <-. eauto.
  - inversion_clear HR as [|? ? HRe HRh].
    enough (exists w1, step w e = Ok w1 /\ lifecycle (alive w1) h = Some b) as (w1 & K & HL1).
    { rewrite K. cbn. eapply IH; [|by eapply well_made_step|exact HRh|exact HL1].
      intros s. destruct (HI s) as (L & I). eexists. eapply step_Inv; [exact I|by eapply well_made_one| |exact K].
      done. }
    pose proof (well_made_one _ _ _ HW) as HW1.
    destruct (alive w) eqn:Al; pose proof (alive_Some _ _ Al) as Hob; cbn in Hob.
    + destruct e as [c| |c k|s]; cbn [RocksDb_Model.step].
      * destruct (call_ok c w HI HW1 HRe) as (w1 & K & Q).
        { destruct c; [discriminate|exact Hob..]. }
        exists w1. split; [exact K|]. unfold alive. rewrite bool_decide_eq_true_2 by exact Q.
        destruct c; [discriminate|exact HL..].
      * eexists. split; [reflexivity|]. exact HL.
      * destruct (die_ok c k w HI HW1 HRe) as (w1 & K).
        { destruct c; [discriminate|exact Hob..]. }
        rewrite K. eexists. split; [reflexivity|]. change (alive (World (w_disk w1) None)) with false.
        destruct c; [discriminate|exact HL..].
      * eexists. split; [reflexivity|]. unfold alive in *. cbn [w_obj]. rewrite Al. exact HL.
    + destruct e as [c| |c k|s]; cbn [RocksDb_Model.step].
      * destruct (call_ok c w HI HW1 HRe) as (w1 & K & Q).
        { destruct c; [exact Hob|discriminate..]. }
        exists w1. split; [exact K|]. unfold alive. rewrite bool_decide_eq_true_2 by exact Q.
        destruct c; [exact HL|discriminate..].
      * discriminate HL.
      * destruct (die_ok c k w HI HW1 HRe) as (w1 & K).
        { destruct c; [exact Hob|discriminate..]. }
        rewrite K. eexists. split; [reflexivity|]. change (alive (World (w_disk w1) None)) with false.
        destruct c; [exact HL|discriminate..].
      * eexists. split; [reflexivity|]. unfold alive in *. cbn [w_obj]. rewrite Al. exact HL.
Qed.

Lemma Inv_new s : Inv s (contents s []) (world_new : world).
Proof. left. auto. Qed.

Lemma run_St s h w : well_made false h -> (s = SMatches -> Forall removal_done h) ->
  run cp cf cm h = Ok w -> is_Some (w_obj w) ->
  exists l, the_log s w = Ok l /\ forall k, log_get k l = contents s (reverse h) k.
Proof.
  intros HW HR K Ho.
  pose proof (run_Inv s h [] world_new w (Inv_new s) HW HR K) as I. rewrite app_nil_r in I.
  destruct I as [(_ & E & _)|S]; [rewrite E in Ho; by destruct Ho|]. by apply the_log_St.
Qed.
End proofs.
