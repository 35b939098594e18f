(** Proofs about the relative translation filter. *)
From stdpp Require Import gmap fin_maps.
From Coq Require Import Reals Lra Psatz.
From Verif Require Import Base ViewGraph_Model ViewGraph_Spec ViewGraph_Proofs Camera_Model Camera_Proofs RotationGraph_Model RotationGraph_Spec RotationGraph_Proofs
  Alignment_Spec Alignment_Proofs TranslationFilter_Model TranslationFilter_Spec.
Open Scope R_scope.

(** ** Sums of maps *)
Definition msum (m : gmap N R) : R := map_fold (fun _ w s => w + s) 0 m.
Lemma msum_insert (m : gmap N R) v w : m !! v = None -> msum (<[v := w]> m) = w + msum m.
Proof. intros H. unfold msum. apply (map_fold_insert_L (fun _ w s => w + s) 0 v w m); [|done]. intros. lra. Qed.
Lemma msum_delete (m : gmap N R) v w : m !! v = Some w -> msum m = w + msum (delete v m).
Proof. intros H. rewrite <- (msum_insert (delete v m) v w) by apply lookup_delete. by rewrite insert_delete. Qed.
Lemma msum_nonneg (m : gmap N R) : (forall v w, m !! v = Some w -> 0 <= w) -> 0 <= msum m.
Proof.
  induction m as [|v w m Hv IH] using map_ind; intros H; [unfold msum; rewrite map_fold_empty; lra|].
  rewrite msum_insert by done. assert (0 <= w) by (apply (H v); apply lookup_insert). assert (0 <= msum m); [|lra]. apply IH. intros u x Hu. apply (H u). rewrite lookup_insert_ne; [done|]. intros ->. by rewrite Hv in Hu.
Qed.

(** ** The graph of the projections *)
(** Arcs of a list of projections. *)
Definition arc (l : list ((N * N) * R)) (u v : N) (w : R) : Prop :=
  exists x, w = Rabs x /\ ((((u, v), x) ∈ l /\ 0 < x) \/ (((v, u), x) ∈ l /\ ~ 0 < x)).
Definition endpoint (l : list ((N * N) * R)) (v : N) : Prop := exists e, e ∈ l /\ (v = e.1.1 \/ v = e.1.2).
Definition good_node (A : N -> N -> R -> Prop) (S : N -> Prop) (v : N) (n : mfas_node) : Prop :=
  (forall u w, n_in n !! u = Some w <-> A u v w /\ S u) /\ (forall u w, n_out n !! u = Some w <-> A v u w /\ S u) /\
  w_in n = msum (n_in n) /\ w_out n = msum (n_out n).
Definition good (A : N -> N -> R -> Prop) (S : N -> Prop) (m : gmap N mfas_node) : Prop :=
  (forall v, is_Some (m !! v) <-> S v) /\ (forall v n, m !! v = Some n -> good_node A S v n).
Definition sound_arcs (A : N -> N -> R -> Prop) : Prop :=
  (forall u v w w', A u v w -> A u v w' -> w = w') /\ (forall u v w, A u v w -> 0 <= w /\ u <> v).

Definition keyed (l : list ((N * N) * R)) : Prop := base.NoDup l.*1 /\ forall e, e ∈ l -> (e.1.1 < e.1.2)%N.
Lemma keyed_unique l k x y : keyed l -> (k, x) ∈ l -> (k, y) ∈ l -> x = y.
Proof.
  intros [H _]. revert H. induction l as [|[k' z] l IH]; [intros _ Hx; by apply elem_of_nil in Hx|]. cbn. rewrite list.NoDup_cons. intros [N1 N2] Hx Hy.
  apply elem_of_cons in Hx as [Hx|Hx]; apply elem_of_cons in Hy as [Hy|Hy].
  - congruence.
  - exfalso. apply N1. injection Hx as -> ->. by apply (elem_of_list_fmap_1 fst) in Hy.
  - exfalso. apply N1. injection Hy as -> ->. by apply (elem_of_list_fmap_1 fst) in Hx.
  - by apply IH.
Qed.
Lemma arc_sound l : keyed l -> sound_arcs (arc l).
Proof.
  intros H. split.
  - intros u v w w' (x & -> & Hx) (y & -> & Hy). destruct H as [H1 H2]. f_equal. destruct Hx as [[Hx Px]|[Hx Px]], Hy as [[Hy Py]|[Hy Py]].
    + by eapply keyed_unique.
    + apply H2 in Hx, Hy. cbn in *. lia.
    + apply H2 in Hx, Hy. cbn in *. lia.
    + by eapply keyed_unique.
  - intros u v w (x & -> & Hx). split; [apply Rabs_pos|]. destruct H as [_ H2]. destruct Hx as [[Hx _]|[Hx _]]; apply H2 in Hx; cbn in *; lia.
Qed.

Lemma total_upd f v m x : node_update f v m !! x = if decide (x = v) then Some (f (m !!! v)) else m !! x.
Proof. unfold node_update. destruct (decide (x = v)) as [->|]; [by rewrite lookup_insert|by rewrite lookup_insert_ne]. Qed.

Lemma degree_step_good l k x m : keyed (l ++ [(k, x)]) -> good (arc l) (endpoint l) m -> good (arc (l ++ [(k, x)])) (endpoint (l ++ [(k, x)])) (degree_step m (k, x)).
Proof.
  intros HK [HD HN].
  assert (Hl : keyed l). { destruct HK as [H1 H2]. split; [rewrite fmap_app in H1; by apply NoDup_app in H1 as (? & _)|]. intros e He. apply H2. set_solver. }
  assert (Hk : forall y, (k, y) ∉ l).
  { intros y Hy. destruct HK as [H1 _]. rewrite fmap_app in H1. apply NoDup_app in H1 as (_ & H1 & _). apply (H1 k); [|set_solver]. apply elem_of_list_fmap. by exists (k, y). }
  assert (Hlt : (k.1 < k.2)%N) by (apply (proj2 HK (k, x)); set_solver).
  destruct k as [a b]. cbn in Hlt. unfold degree_step. cbn [fst snd].
  set (st := if Rlt_dec 0 x then (a, b) else (b, a)). assert (Hst : (st = (a, b) /\ 0 < x) \/ (st = (b, a) /\ ~ 0 < x)) by (unfold st; destruct (Rlt_dec 0 x); auto).
  clearbody st. destruct st as [s t]. assert (Hne : s <> t) by (destruct Hst as [[[= -> ->] _]|[[= -> ->] _]]; lia).
  set (w := Rabs x).
  assert (HA : forall u v r, arc (l ++ [((a, b), x)]) u v r <-> arc l u v r \/ (u = s /\ v = t /\ r = w)).
  { intros u v r. unfold arc. setoid_rewrite elem_of_app. setoid_rewrite elem_of_list_singleton. split.
    - intros (y & -> & [[[Hy|Hy] Py]|[[Hy|Hy] Py]]).
      + left. exists y. auto.
      + injection Hy as -> -> ->. destruct Hst as [[[= -> ->] _]|[_ NP]]; [right; auto|done].
      + left. exists y. auto.
      + injection Hy as -> -> ->. destruct Hst as [[_ NP]|[[= -> ->] _]]; [done|right; auto].
    - intros [(y & -> & Hy)|(-> & -> & ->)].
      + exists y. split; [done|]. destruct Hy as [[? ?]|[? ?]]; auto.
      + exists x. split; [done|]. destruct Hst as [[[= -> ->] P]|[[= -> ->] P]]; auto. }
  assert (HE : forall v, endpoint (l ++ [((a, b), x)]) v <-> endpoint l v \/ v = s \/ v = t).
  { intros v. unfold endpoint. setoid_rewrite elem_of_app. setoid_rewrite elem_of_list_singleton. split.
    - intros (e & [He| ->] & Hv); [left; by exists e|]. cbn in Hv. right. destruct Hst as [[[= -> ->] _]|[[= -> ->] _]]; tauto.
    - intros [(e & He & Hv)|Hv]; [exists e; auto|]. exists ((a, b), x). split; [auto|]. cbn. destruct Hst as [[[= -> ->] _]|[[= -> ->] _]]; tauto. }
  assert (Hno : forall r, ~ arc l s t r).
  { intros r (y & _ & Hy). destruct Hl as [_ Hl]. destruct Hst as [[[= -> ->] _]|[[= -> ->] _]], Hy as [[Hy _]|[Hy _]]; try (by apply (Hk y)); apply Hl in Hy; cbn in Hy; lia. }
  assert (Hend : forall u v r, arc l u v r -> endpoint l u /\ endpoint l v).
  { intros u v r (y & _ & [[Hy _]|[Hy _]]); split; eexists; (split; [exact Hy|]); cbn; auto. }
  assert (HT : forall v, endpoint l v -> exists n, m !!! v = n /\ m !! v = Some n /\ good_node (arc l) (endpoint l) v n).
  { intros v Hv. apply HD in Hv as [n Hn]. exists n. rewrite lookup_total_alt, Hn. split; [done|]. split; [done|]. by apply HN. }
  assert (HF : forall v, good_node (arc l) (endpoint l) v (m !!! v)).
  { intros v. destruct (m !! v) as [n|] eqn:E; [rewrite lookup_total_alt, E; by apply HN|]. rewrite lookup_total_alt, E. change (default inhabitant None) with (MFASNode ∅ ∅ 0 0).
    assert (Nv : ~ endpoint l v) by (intros Hv; apply HD in Hv; rewrite E in Hv; by destruct Hv).
    split; [|split; [|done]]; intros u r; cbn [n_in n_out]; rewrite lookup_empty; (split; [done|]); intros [Ha _]; exfalso; apply Nv; by destruct (Hend _ _ _ Ha). }
  assert (HEmp : forall v r (mm : gmap N R), mm !! v = None -> emplace v r mm = <[v := r]> mm) by (intros v r mm E; unfold emplace; by rewrite E).
  pose proof (HF s) as (S1 & S2 & S3 & S4). pose proof (HF t) as (T1 & T2 & T3 & T4).
  assert (Ein : n_in (m !!! t) !! s = None) by (apply eq_None_not_Some; intros [r Hr]; apply T1 in Hr as [Hr _]; by apply Hno in Hr).
  assert (Eout : n_out (m !!! s) !! t = None) by (apply eq_None_not_Some; intros [r Hr]; apply S2 in Hr as [Hr _]; by apply Hno in Hr).
  assert (Etot : (node_update (fun n => MFASNode (emplace s w (n_in n)) (n_out n) (w_in n + w) (w_out n)) t m) !!! s = m !!! s).
  { rewrite !lookup_total_alt, total_upd, decide_False by done. done. }
  split.
  - intros v. rewrite total_upd. destruct (decide (v = s)) as [->|N1]; [split; [intros _; apply HE; auto|eauto]|].
    rewrite total_upd. destruct (decide (v = t)) as [->|N2]; [split; [intros _; apply HE; auto|eauto]|]. rewrite HD, HE. tauto.
  - intros v n. rewrite total_upd. destruct (decide (v = s)) as [->|N1].
    + intros [= <-]. rewrite Etot. cbn. rewrite HEmp by done. split; [|split; [|split]]; cbn.
      * intros u r. rewrite S1, HA, HE. split; [tauto|]. intros [[Ha|(-> & ? & _)] _]; [|done]. split; [done|]. by destruct (Hend _ _ _ Ha).
      * intros u r. rewrite HA, HE. destruct (decide (u = t)) as [->|Nu].
        -- rewrite lookup_insert. split; [intros [= <-]; tauto|]. intros [[Ha|(_ & _ & ->)] _]; [by apply Hno in Ha|done].
        -- rewrite lookup_insert_ne by done. rewrite S2. split; [tauto|]. intros [[Ha|(_ & ? & _)] _]; [|done]. split; [done|]. by destruct (Hend _ _ _ Ha).
      * done.
      * rewrite msum_insert by done. rewrite S4. lra.
    + rewrite total_upd. destruct (decide (v = t)) as [->|N2].
      * intros [= <-]. rewrite HEmp by done. split; [|split; [|split]]; cbn.
        -- intros u r. rewrite HA, HE. destruct (decide (u = s)) as [->|Nu].
           ++ rewrite lookup_insert. split; [intros [= <-]; tauto|]. intros [[Ha|(_ & _ & ->)] _]; [by apply Hno in Ha|done].
           ++ rewrite lookup_insert_ne by done. rewrite T1. split; [tauto|]. intros [[Ha|(? & _)] _]; [|done]. split; [done|]. by destruct (Hend _ _ _ Ha).
        -- intros u r. rewrite T2, HA, HE. split; [tauto|]. intros [[Ha|(? & _)] _]; [|done]. split; [done|]. by destruct (Hend _ _ _ Ha).
        -- rewrite msum_insert by done. rewrite T3. lra.
        -- done.
      * intros Hn. destruct (HN v n Hn) as (V1 & V2 & V3 & V4). split; [|split; [|split]]; try done.
        -- intros u r. rewrite V1, HA, HE. split; [tauto|]. intros [[Ha|(_ & ? & _)] _]; [|done]. split; [done|]. by destruct (Hend _ _ _ Ha).
        -- intros u r. rewrite V2, HA, HE. split; [tauto|]. intros [[Ha|(? & _)] _]; [|done]. split; [done|]. by destruct (Hend _ _ _ Ha).
Qed.
Lemma degrees_good l : keyed l -> good (arc l) (endpoint l) (foldl degree_step ∅ l).
Proof.
  induction l as [|[k x] l IH] using rev_ind; intros HK.
  - cbn [foldl]. split.
    + intros v. rewrite lookup_empty. split; [by intros []|]. intros (e & He & _). by apply elem_of_nil in He.
    + intros v n Hv. by rewrite lookup_empty in Hv.
  - rewrite foldl_app. cbn [foldl]. apply degree_step_good; [done|]. apply IH. destruct HK as [H1 H2]. split; [rewrite fmap_app in H1; by apply NoDup_app in H1 as (? & _)|]. intros e He. apply H2. set_solver.
Qed.

(** ** The next view *)
Lemma find_next_spec (l : list (N * mfas_node)) best score : 0 <= score ->
  (forall v n, (v, n) ∈ l -> 0 <= w_in n /\ 0 <= w_out n) ->
  let r := find_next best score l in
  (exists n, (r, n) ∈ l /\ n_in n = ∅) \/ ((forall v n, (v, n) ∈ l -> n_in n <> ∅) /\ (r = best \/ exists n, (r, n) ∈ l) /\ (score = 0 -> l <> [] -> exists n, (r, n) ∈ l)).
Proof.
  revert best score. induction l as [|[v n] l IH]; intros best score Hs Hw; cbn.
  { right. split; [intros v n Hv; by apply elem_of_nil in Hv|]. split; [by left|]. done. }
  destruct (decide (size (n_in n) = 0%nat)) as [E|E].
  { left. exists n. split; [set_solver|]. by apply map_size_empty_inv. }
  assert (Hn : n_in n <> ∅) by (intros Z; apply E; rewrite Z; apply map_size_empty).
  assert (Hw' : forall v n, (v, n) ∈ l -> 0 <= w_in n /\ 0 <= w_out n) by (intros u k Hu; apply (Hw u); set_solver).
  destruct (Hw v n ltac:(set_solver)) as [W1 W2]. assert (Pos : 0 < (w_out n + 1) / (w_in n + 1)) by (apply Rdiv_lt_0_compat; lra).
  destruct (Rlt_dec score _) as [L|L].
  - destruct (IH v ((w_out n + 1) / (w_in n + 1)) ltac:(lra) Hw') as [(k & Hk & Ek)|(H1 & H2 & _)].
    + left. exists k. split; [set_solver|done].
    + right. split; [|split].
      * intros u k Hu. apply elem_of_cons in Hu as [[= -> ->]|Hu]; [done|by eapply H1].
      * right. destruct H2 as [->|[k Hk]]; [exists n; set_solver|exists k; set_solver].
      * intros _ _. destruct H2 as [->|[k Hk]]; [exists n; set_solver|exists k; set_solver].
  - destruct (IH best score Hs Hw') as [(k & Hk & Ek)|(H1 & H2 & H3)].
    + left. exists k. split; [set_solver|done].
    + right. split; [|split].
      * intros u k Hu. apply elem_of_cons in Hu as [[= -> ->]|Hu]; [done|by eapply H1].
      * destruct H2 as [->|[k Hk]]; [by left|right; exists k; set_solver].
      * intros Z. exfalso. lra.
Qed.
Lemma find_next_good A S (m : gmap N mfas_node) (on : order (N * mfas_node)) : sound_arcs A -> good A S m -> m <> ∅ ->
  let v := find_next kInvalidViewId 0 (on (map_to_list m)) in
  exists n, m !! v = Some n /\ ((exists u k, m !! u = Some k /\ n_in k = ∅) -> n_in n = ∅).
Proof.
  intros [_ HA] [HD HN] NE v.
  assert (HL : forall u n, (u, n) ∈ on (map_to_list m) <-> m !! u = Some n) by (intros; by rewrite ord_perm, elem_of_map_to_list).
  destruct (find_next_spec (on (map_to_list m)) kInvalidViewId 0) as [(n & Hn & En)|(H1 & _ & H3)]; [lra| | |].
  - intros u n Hn. apply HL in Hn. destruct (HN u n Hn) as (G1 & G2 & -> & ->). split; apply msum_nonneg; intros x w Hx; [apply G1 in Hx as [Hx _]|apply G2 in Hx as [Hx _]]; by destruct (HA _ _ _ Hx).
  - exists n. apply HL in Hn. done.
  - destruct (H3 eq_refl) as [n Hn].
    { intros E. apply NE. pose proof (ord_perm on (map_to_list m)) as P. rewrite E in P. apply Permutation_nil in P. by apply map_to_list_empty_iff in P. }
    exists n. apply HL in Hn. split; [done|]. intros (u & k & Hu & Ek). apply HL in Hu. by apply H1 in Hu.
Qed.

(** ** The ordering *)
Lemma fold_update_in (f : N * R -> mfas_node -> mfas_node) (l : list (N * R)) (m : gmap N mfas_node) x w : base.NoDup l.*1 -> (x, w) ∈ l ->
  foldl (fun m u => node_update (f u) u.1 m) m l !! x = Some (f (x, w) (m !!! x)).
Proof.
  revert m. induction l as [|[y r] l IH]; intros m; [intros _ H; by apply elem_of_nil in H|]. cbn [fmap list_fmap fst foldl]. rewrite list.NoDup_cons. intros [N1 N2] H.
  apply elem_of_cons in H as [[= -> ->]|H].
  - clear IH. assert (E : forall l (m : gmap N mfas_node), y ∉ (l : list (N * R)).*1 -> foldl (fun m u => node_update (f u) u.1 m) m l !! y = m !! y).
    { clear. induction l as [|[z r] l IH]; intros m H; [done|]. cbn [foldl fst]. rewrite IH by set_solver. rewrite total_upd, decide_False; [done|]. set_solver. }
    rewrite E by done. by rewrite total_upd, decide_True.
  - rewrite IH by done. assert (Hne : x <> y). { intros ->. apply N1. by apply (elem_of_list_fmap_1 fst) in H. }
    f_equal. f_equal. rewrite !lookup_total_alt, total_upd, decide_False by done. done.
Qed.
Lemma fold_update_out (f : N * R -> mfas_node -> mfas_node) (l : list (N * R)) (m : gmap N mfas_node) x : x ∉ l.*1 ->
  foldl (fun m u => node_update (f u) u.1 m) m l !! x = m !! x.
Proof.
  revert m. induction l as [|[z r] l IH]; intros m H; [done|]. cbn [foldl fst]. rewrite IH by set_solver. rewrite total_upd, decide_False; [done|]. set_solver.
Qed.

Lemma drop_good A P (m : gmap N mfas_node) v n (ow : order (N * R)) : sound_arcs A -> good A P m -> m !! v = Some n ->
  good A (fun x => P x /\ x <> v) (delete v (foldl (drop_in v) (foldl (drop_out v) m (ow (map_to_list (n_in n)))) (ow (map_to_list (n_out n))))).
Proof.
  intros [HA1 HA2] [HD HN] Hv. destruct (HN v n Hv) as (V1 & V2 & _ & _).
  set (l1 := ow (map_to_list (n_in n))). set (l2 := ow (map_to_list (n_out n))).
  assert (L1 : forall x w, (x, w) ∈ l1 <-> n_in n !! x = Some w) by (intros; unfold l1; by rewrite ord_perm, elem_of_map_to_list).
  assert (L2 : forall x w, (x, w) ∈ l2 <-> n_out n !! x = Some w) by (intros; unfold l2; by rewrite ord_perm, elem_of_map_to_list).
  assert (D1 : base.NoDup l1.*1) by (unfold l1; rewrite ord_perm; apply NoDup_fst_map_to_list).
  assert (D2 : base.NoDup l2.*1) by (unfold l2; rewrite ord_perm; apply NoDup_fst_map_to_list).
  set (m1 := foldl (drop_out v) m l1). set (m2 := foldl (drop_in v) m1 l2).
  assert (K1 : forall x k, m !! x = Some k -> exists k', m1 !! x = Some k' /\ n_in k' = n_in k /\ w_in k' = w_in k /\ n_out k' = delete v (n_out k) /\ w_out k' = msum (n_out k')).
  { intros x k Hx. destruct (HN x k Hx) as (X1 & X2 & X3 & X4). destruct (n_in n !! x) as [w|] eqn:E.
    - exists (MFASNode (n_in k) (delete v (n_out k)) (w_in k) (w_out k - w)). split.
      + etransitivity; [exact (fold_update_in (fun u n => MFASNode (n_in n) (delete v (n_out n)) (w_in n) (w_out n - u.2)) l1 m x w D1 (proj2 (L1 x w) E))|]. rewrite lookup_total_alt, Hx. done.
      + cbn. split; [done|]. split; [done|]. split; [done|]. apply V1 in E as [E _]. assert (Eo : n_out k !! v = Some w) by (apply X2; split; [done|]; apply HD; eauto).
        rewrite X4, (msum_delete _ _ _ Eo). ring.
    - exists k. split.
      + etransitivity; [apply (fold_update_out (fun u n => MFASNode (n_in n) (delete v (n_out n)) (w_in n) (w_out n - u.2)))|done]. intros H. apply elem_of_list_fmap in H as ([y w] & -> & H). apply L1 in H. cbn in E. congruence.
      + split; [done|]. split; [done|]. rewrite delete_notin; [done|]. apply eq_None_not_Some. intros [w Hw]. apply X2 in Hw as [Hw _]. assert (n_in n !! x = Some w) by (apply V1; split; [done|]; apply HD; eauto). congruence. }
  assert (K2 : forall x k, m1 !! x = Some k -> (forall w, n_in k !! v = Some w <-> n_out n !! x = Some w) -> w_in k = msum (n_in k) ->
    exists k', m2 !! x = Some k' /\ n_out k' = n_out k /\ w_out k' = w_out k /\ n_in k' = delete v (n_in k) /\ w_in k' = msum (n_in k')).
  { intros x k Hx HE HW. destruct (n_out n !! x) as [w|] eqn:E.
    - exists (MFASNode (delete v (n_in k)) (n_out k) (w_in k - w) (w_out k)). split.
      + etransitivity; [exact (fold_update_in (fun u n => MFASNode (delete v (n_in n)) (n_out n) (w_in n - u.2) (w_out n)) l2 m1 x w D2 (proj2 (L2 x w) E))|]. rewrite lookup_total_alt, Hx. done.
      + cbn. split; [done|]. split; [done|]. split; [done|]. assert (Eo : n_in k !! v = Some w) by (by apply HE). rewrite HW, (msum_delete _ _ _ Eo). ring.
    - exists k. split.
      + etransitivity; [apply (fold_update_out (fun u n => MFASNode (delete v (n_in n)) (n_out n) (w_in n - u.2) (w_out n)))|done]. intros H. apply elem_of_list_fmap in H as ([y w] & -> & H). apply L2 in H. cbn in E. congruence.
      + split; [done|]. split; [done|]. rewrite delete_notin; [done|]. apply eq_None_not_Some. intros [w Hw]. apply HE in Hw. done. }
  assert (K : forall x k, m !! x = Some k -> exists k', m2 !! x = Some k' /\ n_in k' = delete v (n_in k) /\ n_out k' = delete v (n_out k) /\ w_in k' = msum (n_in k') /\ w_out k' = msum (n_out k')).
  { intros x k Hx. destruct (HN x k Hx) as (X1 & X2 & X3 & X4). destruct (K1 x k Hx) as (k1 & H1 & E1 & E2 & E3 & E4).
    destruct (K2 x k1 H1) as (k2 & H2 & F1 & F2 & F3 & F4).
    - intros w. rewrite E1, X1, V2. assert (P x) by (apply HD; eauto). assert (P v) by (apply HD; eauto). tauto.
    - by rewrite E2, E1.
    - exists k2. rewrite F3, F1, F2, E1, E3. split; [done|]. split; [done|]. split; [done|]. split; [by rewrite F4, F3, E1|by rewrite E4, E3]. }
  assert (KN : forall x, m !! x = None -> m2 !! x = None).
  { intros x Hx. transitivity (m1 !! x); [apply (fold_update_out (fun u n => MFASNode (delete v (n_in n)) (n_out n) (w_in n - u.2) (w_out n)))|].
    - intros H. apply elem_of_list_fmap in H as ([y w] & -> & H). apply L2 in H. apply V2 in H as [_ H]. apply HD in H as [? H]. cbn in Hx. congruence.
    - rewrite <- Hx. apply (fold_update_out (fun u n => MFASNode (n_in n) (delete v (n_out n)) (w_in n) (w_out n - u.2))).
      intros H. apply elem_of_list_fmap in H as ([y w] & -> & H). apply L1 in H. apply V1 in H as [_ H]. apply HD in H as [? H]. cbn in Hx. congruence. }
  split.
  - intros x. destruct (decide (x = v)) as [->|Nx]; [rewrite lookup_delete; split; [by intros []|tauto]|]. rewrite lookup_delete_ne by done. split.
    + intros [k Hk]. split; [|done]. apply HD. destruct (m !! x) eqn:E; [eauto|]. rewrite (KN x E) in Hk. done.
    + intros [Hx _]. apply HD in Hx as [k Hx]. destruct (K x k Hx) as (k' & ? & _). eauto.
  - intros x k' Hk'. apply lookup_delete_Some in Hk' as [Nx Hk']. destruct (m !! x) as [k|] eqn:Ex; [|rewrite (KN x Ex) in Hk'; done].
    destruct (HN x k Ex) as (X1 & X2 & _). destruct (K x k Ex) as (k2 & Hk2 & E1 & E2 & E3 & E4). rewrite Hk' in Hk2. injection Hk2 as <-. split; [|split; [|done]].
    + intros u w. rewrite E1, lookup_delete_Some, X1. split; [intros (? & ? & ?); split; [done|]; split; [done|]; congruence|]. intros (? & ? & ?). split; [congruence|done].
    + intros u w. rewrite E2, lookup_delete_Some, X2. split; [intros (? & ? & ?); split; [done|]; split; [done|]; congruence|]. intros (? & ? & ?). split; [congruence|done].
Qed.

Definition acyclic (A : N -> N -> R -> Prop) : Prop := forall T : gset N, T <> ∅ -> exists x, x ∈ T /\ forall u w, u ∈ T -> ~ A u x w.
Lemma order_loop_ok A on ow k i P (m : gmap N mfas_node) ord : sound_arcs A -> good A P m -> size m = k ->
  exists ord', order_loop on ow k i m ord = Ok ord' /\
    (forall x, ~ P x -> ord' !! x = ord !! x) /\ (forall x, P x -> exists j, ord' !! x = Some j /\ (i <= j)%nat) /\
    (forall x y j, P x -> P y -> ord' !! x = Some j -> ord' !! y = Some j -> x = y) /\
    (acyclic A -> forall u v w ju jv, A u v w -> P u -> P v -> ord' !! u = Some ju -> ord' !! v = Some jv -> (ju < jv)%nat).
Proof.
  intros HA. revert i P m ord. induction k as [|k IH]; intros i P m ord HG Hk; cbn [order_loop].
  { apply map_size_empty_inv in Hk. subst m. assert (NP : forall x, ~ P x) by (intros x Hx; apply HG in Hx as [? Hx]; by rewrite lookup_empty in Hx).
    exists ord. split; [done|]. split; [done|]. split; [intros x Hx; by apply NP in Hx|]. split; [intros x y j Hx; by apply NP in Hx|]. intros _ u v w ju jv _ Hu. by apply NP in Hu. }
  assert (NE : m <> ∅) by (intros ->; by rewrite map_size_empty in Hk).
  destruct (find_next_good A P m on HA HG NE) as (n & Hn & Hsrc). set (v := find_next _ _ _) in *. rewrite Hn. cbn [or_die mbind outcome_bind].
  pose proof (drop_good A P m v n ow HA HG Hn) as HG'. set (m' := delete v _) in *.
  assert (Sz : size m' = k).
  { assert (Ed : dom m' = dom m ∖ {[v]}).
    { apply set_eq. intros x. rewrite elem_of_difference, elem_of_singleton, !elem_of_dom. rewrite (proj1 HG' x), (proj1 HG x). done. }
    rewrite <- !size_dom in *. rewrite Ed, size_difference, size_singleton; [lia|]. apply singleton_subseteq_l, elem_of_dom. eauto. }
  assert (Pv : P v) by (apply HG; eauto).
  destruct (IH (S i) _ m' (<[v := i]> ord) HG' Sz) as (ord' & E & H1 & H2 & H3 & H4). exists ord'. split; [done|].
  assert (Ev : ord' !! v = Some i) by (rewrite H1 by tauto; apply lookup_insert).
  split; [|split; [|split]].
  - intros x Hx. rewrite H1 by tauto. rewrite lookup_insert_ne; [done|]. congruence.
  - intros x Hx. destruct (decide (x = v)) as [->|Nx]; [exists i; split; [done|lia]|]. destruct (H2 x) as (j & ? & ?); [done|]. exists j. split; [done|lia].
  - intros x y j Hx Hy Ex Ey. destruct (decide (x = v)) as [->|Nx], (decide (y = v)) as [->|Ny]; [done| | |].
    + destruct (H2 y) as (j' & Ej & ?); [done|]. rewrite Ev in Ex. rewrite Ej in Ey. injection Ex as <-. injection Ey as <-. lia.
    + destruct (H2 x) as (j' & Ej & ?); [done|]. rewrite Ev in Ey. rewrite Ej in Ex. injection Ex as <-. injection Ey as <-. lia.
    + by apply (H3 x y j).
  - intros Hac x y w jx jy Ha Px Py Ex Ey. destruct (decide (y = v)) as [->|Ny].
    + exfalso. (* the chosen view is a source *)
      assert (En : n_in n = ∅).
      { apply Hsrc. destruct (Hac (dom m)) as (s & Hs & Hno); [by intros Z%dom_empty_inv_L|]. apply elem_of_dom in Hs as [ns Hs]. exists s, ns. split; [done|].
        apply map_empty. intros u. apply eq_None_not_Some. intros [r Hr]. apply (proj2 HG s ns Hs) in Hr as [Hr Hu]. apply (Hno u r); [|done]. apply elem_of_dom. by apply HG. }
      assert (Hin : n_in n !! x = Some w) by (apply (proj2 HG v n Hn); done). rewrite En in Hin. by rewrite lookup_empty in Hin.
    + destruct (decide (x = v)) as [->|Nx].
      * destruct (H2 y) as (j & Ej & ?); [done|]. rewrite Ev in Ex. rewrite Ej in Ey. injection Ex as <-. injection Ey as <-. lia.
      * by apply (H4 Hac x y w).
Qed.
