(** Proofs about the samplers. *)
From stdpp Require Import gmap.
From Coq Require Import QArith Qround.
From Verif Require Import Base Sampling_Model Sampling_Spec.
Open Scope Z_scope.

(** ** Random sampler *)

(** Take the element at position [k] of [y :: rest]; the first element takes its place. *)
Definition pick (y : Z) (rest : list Z) (k : nat) : Z * list Z :=
  match k with
  | O => (y, rest)
  | S k' => (default y (rest !! k'), <[k' := y]> rest)
  end.

Lemma pick_perm y rest k : (k <= length rest)%nat -> (pick y rest k).1 :: (pick y rest k).2 ≡ₚ y :: rest.
Proof.
  destruct k as [|k]; [done|]. simpl. intros Hk.
  destruct (lookup_lt_is_Some_2 rest k) as [x Hx]; [lia|]. rewrite Hx. simpl.
  rewrite <-(take_drop_middle rest k x Hx) at 2.
  rewrite insert_take_drop by lia. rewrite !Permutation_middle. simpl.
  rewrite <-!Permutation_middle. apply perm_swap.
Qed.

Lemma pick_inj y rest k k' : NoDup (y :: rest) -> (k <= length rest)%nat -> (k' <= length rest)%nat ->
  (pick y rest k).1 = (pick y rest k').1 -> k = k'.
Proof.
  intros Hnd Hk Hk' E.
  assert (H : forall k, (k <= length rest)%nat -> (y :: rest) !! k = Some (pick y rest k).1).
  { intros [|j] Hj; [done|]. simpl. destruct (lookup_lt_is_Some_2 rest j) as [x Hx]; [lia|]. by rewrite Hx. }
  eapply NoDup_lookup; [exact Hnd|by apply H|]. rewrite E. by apply H.
Qed.

Lemma pick_find y rest x : x ∈ y :: rest -> exists k, (k <= length rest)%nat /\ (pick y rest k).1 = x.
Proof.
  intros [->|[k Hk]%elem_of_list_lookup]%elem_of_cons.
  - exists 0%nat. split; [lia|done].
  - exists (S k). pose proof (lookup_lt_Some _ _ _ Hk). split; [lia|]. simpl. by rewrite Hk.
Qed.

Lemma swap_split pre y rest k : (k <= length rest)%nat ->
  swap (pre ++ y :: rest) (length pre) (length pre + k) =
    Ok (pre ++ (pick y rest k).1 :: (pick y rest k).2).
Proof.
  intros Hk. unfold swap. rewrite (list_lookup_middle pre rest y (length pre)) by done. cbn [or_ub mbind outcome_bind].
  destruct k as [|k].
  - rewrite Nat.add_0_r, list_lookup_middle by done. cbn [or_ub mbind outcome_bind].
    f_equal. rewrite !insert_app_r_alt by lia. rewrite Nat.sub_diag. done.
  - rewrite lookup_app_r by lia. replace (length pre + S k - length pre)%nat with (S k) by lia. simpl.
    destruct (lookup_lt_is_Some_2 rest k) as [x Hx]; [lia|]. rewrite Hx. simpl. f_equal.
    rewrite insert_app_r_alt by lia. rewrite Nat.sub_diag. simpl.
    rewrite insert_app_r_alt by lia. replace (length pre + S k - length pre)%nat with (S k) by lia. done.
Qed.

Definition draw_of (n : nat) (r : stream) : nat := Z.to_nat (shead r mod Z.of_nat n).
Lemma draw_of_lt n r : (0 < n)%nat -> (draw_of n r < n)%nat.
Proof. intros Hn. unfold draw_of. pose proof (Z.mod_pos_bound (shead r) (Z.of_nat n)). lia. Qed.

(** What the loop draws, as a function on the part of the vector that is still to be drawn from. *)
Fixpoint picks (todo : nat) (rest : list Z) (r : stream) : list Z * list Z :=
  match todo, rest with
  | S todo', y :: rest' =>
      let p := pick y rest' (draw_of (S (length rest')) r) in
      let q := picks todo' p.2 (stail r) in
      (p.1 :: q.1, q.2)
  | _, _ => ([], rest)
  end.

Fixpoint sdrop (n : nat) (r : stream) : stream := match n with O => r | S n' => sdrop n' (stail r) end.

Lemma rs_loop_picks todo : forall pre rest r subset, (todo <= length rest)%nat ->
  rs_loop todo (length pre) (pre ++ rest) r subset =
    Ok (pre ++ (picks todo rest r).1 ++ (picks todo rest r).2, sdrop todo r, subset ++ (picks todo rest r).1).
Proof.
  induction todo as [|todo IH]; intros pre rest r subset Hlen.
  - simpl. by rewrite app_nil_r.
  - destruct rest as [|y rest]; [simpl in Hlen; lia|]. cbn [rs_loop]. unfold rand_int.
    rewrite app_length. cbn [length] in *. rewrite decide_True by lia. cbn [mbind outcome_bind].
    assert (Hd : (draw_of (S (length rest)) r < S (length rest))%nat) by (apply draw_of_lt; lia).
    replace (Z.to_nat (Z.of_nat (length pre) + shead r mod (Z.of_nat (length pre + S (length rest)) - 1 - Z.of_nat (length pre) + 1)))
      with (length pre + draw_of (S (length rest)) r)%nat.
    2:{ unfold draw_of.
        replace (Z.of_nat (length pre + S (length rest)) - 1 - Z.of_nat (length pre) + 1) with (Z.of_nat (S (length rest))) by lia.
        pose proof (Z.mod_pos_bound (shead r) (Z.of_nat (S (length rest)))). lia. }
    rewrite swap_split by lia. cbn [mbind outcome_bind].
    rewrite list_lookup_middle by done. cbn [or_ub mbind outcome_bind picks].
    set (p := pick y rest (draw_of (S (length rest)) r)).
    replace (pre ++ p.1 :: p.2) with ((pre ++ [p.1]) ++ p.2) by (by rewrite <-app_assoc).
    replace (S (length pre)) with (length (pre ++ [p.1])) by (rewrite app_length; simpl; lia).
    assert (Hp : length p.2 = length rest).
    { unfold p, pick. destruct (draw_of _ _); simpl; [done|by rewrite insert_length]. }
    rewrite IH by lia. cbn [fst snd sdrop]. by rewrite <-!app_assoc.
Qed.

Lemma picks_perm todo : forall rest r, (todo <= length rest)%nat ->
  (picks todo rest r).1 ++ (picks todo rest r).2 ≡ₚ rest /\ length (picks todo rest r).1 = todo.
Proof.
  induction todo as [|todo IH]; intros rest r Hlen; [done|].
  destruct rest as [|y rest]; [simpl in Hlen; lia|]. cbn [picks fst snd length] in *.
  assert (Hd : (draw_of (S (length rest)) r < S (length rest))%nat) by (apply draw_of_lt; lia).
  set (p := pick y rest (draw_of (S (length rest)) r)).
  assert (Hp : length p.2 = length rest).
  { unfold p, pick. destruct (draw_of _ _); simpl; [done|by rewrite insert_length]. }
  destruct (IH p.2 (stail r)) as [IH1 IH2]; [lia|]. split; [|by rewrite IH2].
  simpl. rewrite IH1. apply pick_perm. lia.
Qed.

Lemma seqZ_props n x : x ∈ seqZ 0 n <-> 0 <= x < n.
Proof. rewrite elem_of_seqZ. lia. Qed.

Lemma random_sampler_lemma m n indices r subset :
  0 <= m <= n -> indices ≡ₚ seqZ 0 n ->
  exists xs indices', rs_sample m indices r subset = Ok (indices', sdrop (Z.to_nat m) r, subset ++ xs) /\
    good_sample m n xs /\ indices' ≡ₚ seqZ 0 n.
Proof.
  intros Hm Hp. unfold rs_sample.
  assert (Hlen : length indices = Z.to_nat n) by (by rewrite Hp, seqZ_length).
  pose proof (rs_loop_picks (Z.to_nat m) [] indices r subset) as E. simpl in E. rewrite E by lia.
  destruct (picks_perm (Z.to_nat m) indices r) as [Hperm Hl]; [lia|].
  eexists _, _. split; [done|]. split; [|by rewrite Hperm].
  assert (Hnd : NoDup ((picks (Z.to_nat m) indices r).1 ++ (picks (Z.to_nat m) indices r).2)).
  { rewrite Hperm, Hp. apply NoDup_seqZ. }
  split_and!.
  - lia.
  - by apply NoDup_app in Hnd as [? _].
  - intros x Hx. apply seqZ_props. rewrite <-Hp, <-Hperm. apply elem_of_app. by left.
Qed.

Lemma picks_unique xs : forall rest, NoDup rest -> NoDup xs -> (forall x, x ∈ xs -> x ∈ rest) ->
  exists ds, draws (Z.of_nat (length xs)) (Z.of_nat (length rest)) ds /\
    (forall r, starts_with r ds -> (picks (length xs) rest r).1 = xs) /\
    (forall ds' r, draws (Z.of_nat (length xs)) (Z.of_nat (length rest)) ds' -> starts_with r ds' ->
       (picks (length xs) rest r).1 = xs -> ds' = ds).
Proof.
  induction xs as [|x xs IH]; intros rest Hnd Hndx Hsub.
  { exists []. split_and!; [split; [done|]|done|].
    - intros i d Hd. by rewrite lookup_nil in Hd.
    - intros ds' r [Hl _] _ _. by destruct ds'. }
  destruct rest as [|y rest]; [exfalso; eapply not_elem_of_nil, (Hsub x); by left|].
  apply NoDup_cons in Hndx as [Hx Hndx].
  destruct (pick_find y rest x) as (k & Hk & Hpk); [apply Hsub; by left|].
  pose proof (pick_perm y rest k Hk) as Hperm.
  assert (Hlen : length (pick y rest k).2 = length rest).
  { apply Permutation_length in Hperm. simpl in Hperm. lia. }
  assert (Hnd2 : NoDup (x :: (pick y rest k).2)) by (rewrite <-Hpk, Hperm; done).
  destruct (IH (pick y rest k).2) as (ds & [Hdl Hdr] & Hrun & Huniq).
  - by apply NoDup_cons in Hnd2 as [_ ?].
  - done.
  - intros z Hz. assert (Hz' : z ∈ y :: rest) by (apply Hsub; by right).
    rewrite <-Hperm, Hpk in Hz'. apply elem_of_cons in Hz' as [->|]; done.
  - rewrite Hlen in *.
    assert (Hdraw : forall r, r 0%nat = Z.of_nat k -> draw_of (S (length rest)) r = k).
    { intros r Hr. unfold draw_of, shead. rewrite Hr, Z.mod_small by lia. lia. }
    exists (Z.of_nat k :: ds). split_and!.
    + split; [simpl; lia|]. intros [|i] d Hd.
      * injection Hd as <-. simpl length. lia.
      * specialize (Hdr i d Hd). simpl length. lia.
    + intros r Hs. cbn [length picks fst snd]. rewrite (Hdraw r) by (by apply (Hs 0%nat)).
      rewrite Hpk. f_equal. apply Hrun. intros i d Hd. by apply (Hs (S i)).
    + intros ds' r [Hl' Hr'] Hs' E. destruct ds' as [|d' ds']; [simpl in Hl'; lia|].
      cbn [length picks fst snd] in E. injection E as E1 E2.
      assert (Hr0 : r 0%nat = d') by (by apply (Hs' 0%nat)).
      assert (Hd' : 0 <= d' < Z.of_nat (S (length rest))) by (specialize (Hr' 0%nat d' eq_refl); simpl length in Hr'; lia).
      assert (Hdk : draw_of (S (length rest)) r = Z.to_nat d').
      { unfold draw_of, shead. rewrite Hr0, Z.mod_small by lia. done. }
      rewrite Hdk in E1, E2.
      assert (Z.to_nat d' = k) as Ek.
      { eapply pick_inj; [exact Hnd|lia|done|]. by rewrite E1, Hpk. }
      rewrite Ek in E2. f_equal; [lia|]. apply (Huniq ds' (stail r)).
      * split; [simpl in Hl'; lia|]. intros i d Hd. specialize (Hr' (S i) d Hd). simpl length in Hr'. lia.
      * intros i d Hd. by apply (Hs' (S i)).
      * done.
Qed.

Lemma random_sampler_uniform_lemma m n indices xs :
  0 <= m <= n -> indices ≡ₚ seqZ 0 n -> good_sample m n xs ->
  exists ds, draws m n ds /\
    (forall r, starts_with r ds -> exists indices' r', rs_sample m indices r [] = Ok (indices', r', xs)) /\
    (forall ds' r indices' r', draws m n ds' -> starts_with r ds' ->
       rs_sample m indices r [] = Ok (indices', r', xs) -> ds' = ds).
Proof.
  intros Hm Hp (Hl & Hnd & Hin).
  assert (Hlen : length indices = Z.to_nat n) by (by rewrite Hp, seqZ_length).
  assert (Em : Z.to_nat m = length xs) by lia.
  destruct (picks_unique xs indices) as (ds & Hd & Hrun & Huniq).
  { rewrite Hp. apply NoDup_seqZ. }
  { done. }
  { intros x Hx. rewrite Hp. by apply seqZ_props, Hin. }
  replace (Z.of_nat (length xs)) with m in * by lia.
  replace (Z.of_nat (length indices)) with n in * by lia.
  assert (E : forall r, rs_sample m indices r [] =
    Ok ((picks (length xs) indices r).1 ++ (picks (length xs) indices r).2, sdrop (length xs) r, (picks (length xs) indices r).1)).
  { intros r. unfold rs_sample. rewrite Em. pose proof (rs_loop_picks (length xs) [] indices r []) as E.
    simpl in E. apply E. lia. }
  exists ds. split_and!; [done| |].
  - intros r Hs. rewrite E, (Hrun r Hs). eauto.
  - intros ds' r indices' r' Hd' Hs' Hr. rewrite E in Hr. injection Hr as _ _ Hr. by eapply Huniq.
Qed.

(** ** Exhaustive sampler *)

Definition es_valid (s : es_state) : Prop := 0 <= es_i s /\ es_i s < es_j s /\ es_j s < es_n s.

(** Twice the position of a pair in the enumeration. *)
Definition pos (n i j : Z) : Z := 2 * i * n - i * (i + 1) + 2 * (j - i - 1).

Lemma pos_range n i j : 0 <= i -> i < j -> j < n -> 0 <= pos n i j < n * (n - 1).
Proof. intros. unfold pos. split; nia. Qed.

Lemma pos_lt n i j i' j' : 0 <= i -> i < j -> j < n -> i' < j' -> j' < n -> i < i' -> pos n i j < pos n i' j'.
Proof.
  intros H1 H2 H3 H4 H5 H6. unfold pos.
  assert (exists d, i' = i + d /\ 1 <= d) as (d & -> & Hd) by (exists (i' - i); lia).
  assert (exists q, n = i + 1 + q) as (q & ->) by (exists (n - i - 1); lia).
  assert (0 <= (d - 1) * (2 * q - d)) by nia. nia.
Qed.

Lemma pos_inj n i j i' j' : 0 <= i -> i < j -> j < n -> 0 <= i' -> i' < j' -> j' < n ->
  pos n i j = pos n i' j' -> i = i' /\ j = j'.
Proof.
  intros. destruct (Z.lt_trichotomy i i') as [Hlt|[->|Hgt]].
  - pose proof (pos_lt n i j i' j'). lia.
  - unfold pos in *. lia.
  - pose proof (pos_lt n i' j' i j). lia.
Qed.

Lemma es_step_pos s : es_valid s -> let s' := (es_sample s []).1 in
  es_valid s' /\ es_n s' = es_n s /\
  pos (es_n s) (es_i s') (es_j s') = (pos (es_n s) (es_i s) (es_j s) + 2) mod (es_n s * (es_n s - 1)).
Proof.
  destruct s as [n i j]. unfold es_valid, es_sample. cbn [es_n es_i es_j]. intros (H1 & H2 & H3).
  destruct (decide (n <= j + 1)) as [Hj|Hj]; cbn [fst es_n es_i es_j].
  - destruct (decide (n - 1 <= i + 1)) as [Hi|Hi]; cbn [es_n es_i es_j].
    + split; [lia|]. split; [done|]. assert (i = n - 2) as -> by lia. assert (j = n - 1) as -> by lia.
      unfold pos. replace (2 * (n - 2) * n - (n - 2) * (n - 2 + 1) + 2 * (n - 1 - (n - 2) - 1) + 2) with (n * (n - 1)) by lia.
      rewrite Z.mod_same by nia. lia.
    + split; [lia|]. split; [done|]. assert (j = n - 1) as -> by lia.
      rewrite Z.mod_small; [unfold pos; lia|].
      replace (pos n i (n - 1) + 2) with (pos n (i + 1) (i + 1 + 1)) by (unfold pos; lia).
      apply pos_range; lia.
  - split; [lia|]. split; [done|]. rewrite Z.mod_small; [unfold pos; lia|].
    replace (pos n i j + 2) with (pos n i (j + 1)) by (unfold pos; lia). apply pos_range; lia.
Qed.

Lemma es_after_pos k : forall s, es_valid s -> es_valid (es_after k s) /\ es_n (es_after k s) = es_n s /\
  pos (es_n s) (es_i (es_after k s)) (es_j (es_after k s)) =
    (pos (es_n s) (es_i s) (es_j s) + 2 * Z.of_nat k) mod (es_n s * (es_n s - 1)).
Proof.
  induction k as [|k IH]; intros s Hv.
  - split; [done|]. split; [done|]. simpl. rewrite Z.add_0_r. destruct Hv as (? & ? & ?).
    rewrite Z.mod_small; [done|]. by apply pos_range.
  - destruct (es_step_pos s Hv) as (Hv' & Hn & Hp). cbn [es_after].
    destruct (IH _ Hv') as (Hv'' & Hn' & Hp'). rewrite Hn in *. split; [done|]. split; [done|].
    rewrite Hp', Hp, Zplus_mod_idemp_l. f_equal. lia.
Qed.

Lemma es_nth_eq k s : es_nth k s = [es_i (es_after k s); es_j (es_after k s)].
Proof. unfold es_nth, es_sample. by destruct (decide _). Qed.

Lemma even_pos n i j : (2 | pos n i j).
Proof.
  assert (H : (2 | i * (i + 1))).
  { destruct (Z.Even_or_Odd i) as [[q ->]|[q ->]]; [exists (q * (2 * q + 1))|exists ((2 * q + 1) * (q + 1))]; lia. }
  destruct H as [q Hq]. exists (i * n - q + (j - i - 1)). unfold pos. lia.
Qed.

Lemma exhaustive_lemma s : es_valid s ->
  (forall k, exists a b, es_nth k s = [a; b] /\ 0 <= a < b /\ b < es_n s) /\
  (forall a b, 0 <= a < b -> b < es_n s ->
     exists k, (2 * Z.of_nat k < es_n s * (es_n s - 1)) /\ es_nth k s = [a; b] /\
       forall k', (2 * Z.of_nat k' < es_n s * (es_n s - 1)) -> es_nth k' s = [a; b] -> k' = k).
Proof.
  intros Hv. split.
  - intros k. destruct (es_after_pos k s Hv) as ((? & ? & ?) & Hn & _). rewrite es_nth_eq.
    eexists _, _. split; [done|]. lia.
  - intros a b Hab Hb. set (n := es_n s) in *. set (p := pos n (es_i s) (es_j s)).
    set (M := n * (n - 1)).
    assert (Hp : 0 <= p < M) by (destruct Hv as (? & ? & ?); by apply pos_range).
    assert (Hq : 0 <= pos n a b < M) by (apply pos_range; lia).
    destruct (even_pos n a b) as [u Hu], (even_pos n (es_i s) (es_j s)) as [v Hw]. fold p in Hw.
    assert (Hm2 : exists h, M = 2 * h).
    { unfold M. destruct (Z.Even_or_Odd n) as [[h ->]|[h ->]]; [exists (h * (2 * h - 1))|exists ((2 * h + 1) * h)]; lia. }
    destruct Hm2 as [h Hh].
    assert (Hex : exists k, 2 * Z.of_nat k < M /\ (p + 2 * Z.of_nat k) mod M = pos n a b).
    { destruct (decide (p <= pos n a b)).
      - exists (Z.to_nat (u - v)). split; [lia|]. rewrite Z.mod_small; lia.
      - exists (Z.to_nat (u - v + h)). split; [lia|].
        replace (p + 2 * Z.of_nat (Z.to_nat (u - v + h))) with (pos n a b + 1 * M) by lia.
        rewrite Z_mod_plus_full, Z.mod_small; lia. }
    destruct Hex as (k & Hk & Hmod). exists k. split; [done|].
    destruct (es_after_pos k s Hv) as ((? & ? & ?) & Hn & Hpk). fold n p M in Hpk, Hn.
    rewrite Hmod in Hpk. apply pos_inj in Hpk as [E1 E2]; try lia.
    rewrite es_nth_eq, E1, E2. split; [done|].
    intros k' Hk' E. rewrite es_nth_eq in E. injection E as E1' E2'.
    destruct (es_after_pos k' s Hv) as (_ & _ & Hpk'). fold n p M in Hpk'. rewrite E1', E2', <-Hmod in Hpk'.
    assert (Hsmall : forall x y, 0 <= x < M -> 0 <= y < M -> (p + x) mod M = (p + y) mod M -> x = y).
    { intros x y Hx Hy Hxy.
      assert (Hz : (x - y) mod M = 0).
      { replace (x - y) with ((p + x) - (p + y)) by lia. rewrite Zminus_mod, Hxy, Z.sub_diag. done. }
      destruct (decide (y <= x)).
      - rewrite Z.mod_small in Hz by lia. lia.
      - apply Z.mod_divide in Hz as [c Hc]; [|lia].
        clear -Hx Hy Hc n0. clearbody M. destruct (decide (0 <= c)); nia. }
    apply Hsmall in Hpk'; lia.
Qed.

(** ** PROSAC sampler *)

Lemma ps_grow_range todo : forall t m N tn tn' n, m <= n <= N -> m <= (ps_grow todo t m N tn tn' n).2 <= N.
Proof.
  induction todo as [|todo IH]; intros t m N tn tn' n Hn; simpl; [done|].
  destruct (decide _) as [[_ Hlt]|_]; apply IH; lia.
Qed.

Lemma rand_int_range lo hi r x r' : rand_int lo hi r = Ok (x, r') -> lo <= x <= hi.
Proof.
  unfold rand_int. destruct (decide _); [|done]. intros [= <- <-].
  pose proof (Z.mod_pos_bound (shead r) (hi - lo + 1)). lia.
Qed.

Lemma ps_draw_new fuel : forall hi used r x r', ps_draw fuel hi used r = Ok (x, r') -> x ∉ used /\ 0 <= x <= hi.
Proof.
  induction fuel as [|fuel IH]; intros hi used r x r'; cbn [ps_draw]; [done|].
  destruct (rand_int 0 hi r) as [[y r1]| | |] eqn:E; cbn [mbind outcome_bind]; try done.
  destruct (decide (y ∈ used)); [apply IH|]. intros [= -> ->]. split; [done|]. by eapply rand_int_range.
Qed.

Lemma ps_draws_ok fuel count : forall hi used r xs r', ps_draws fuel count hi used r = Ok (xs, r') ->
  NoDup used -> (forall x, x ∈ used -> 0 <= x <= hi) ->
  length xs = (length used + count)%nat /\ NoDup xs /\ (forall x, x ∈ xs -> 0 <= x <= hi).
Proof.
  induction count as [|count IH]; intros hi used r xs r'; cbn [ps_draws].
  - intros [= -> ->] ? ?. split_and!; [lia|done|done].
  - destruct (ps_draw fuel hi used r) as [[y r1]| | |] eqn:E; cbn [mbind outcome_bind]; try done.
    apply ps_draw_new in E as [Hy Hr]. intros Hd Hnd Hu.
    destruct (IH _ _ _ _ _ Hd) as (Hl & ? & ?).
    + apply NoDup_app. split_and!; [done| |apply NoDup_singleton]. intros x Hx ->%elem_of_list_singleton. done.
    + intros x [?| ->%elem_of_list_singleton]%elem_of_app; auto.
    + rewrite app_length in Hl. simpl in Hl. split_and!; [lia|done|done].
Qed.

Lemma prosac_lemma fuel m s r s' r' xs : 1 <= m <= ps_n s ->
  ps_sample fuel m s r [] = Ok (s', r', xs) ->
  s' = PS (ps_n s) (ps_convergence s) (ps_k s + 1) /\
  Z.of_nat (length xs) = m /\ NoDup xs /\
  (forall x, x ∈ xs -> 0 <= x <= ps_n s) /\
  (good_sample m (ps_n s) xs \/
   exists ys, xs = ys ++ [ps_n s] /\ forall y, y ∈ ys -> 0 <= y < ps_n s - 1).
Proof.
  intros Hm. unfold ps_sample.
  pose proof (ps_grow_range (Z.to_nat (ps_k s)) 1 m (ps_n s) (ps_t_n m (ps_n s) (ps_convergence s)) 1%Q m) as Hg.
  destruct (ps_grow _ _ _ _ _ _ _) as [tn' n]. cbn [snd] in Hg. specialize (Hg ltac:(lia)).
  destruct (decide (tn' < inject_Z (ps_k s))%Q) as [Hlt|Hge].
  - destruct (ps_draws fuel (Z.to_nat m) (n - 1) [] r) as [[ys r1]| | |] eqn:E; cbn [mbind outcome_bind]; try done.
    simpl app. destruct (check _) as [[]| | |] eqn:Ec; cbn [mbind outcome_bind]; try done. intros [= <- <- <-].
    apply ps_draws_ok in E as (Hl & Hnd & Hr); [|constructor|by intros ? ?%elem_of_nil].
    simpl in Hl. split_and!; [done|lia|done| |].
    + intros x Hx%Hr. lia.
    + left. split_and!; [lia|done|]. intros x Hx%Hr. lia.
  - destruct (ps_draws fuel (Z.to_nat (m - 1)) (n - 2) [] r) as [[ys r1]| | |] eqn:E; cbn [mbind outcome_bind]; try done.
    simpl app. destruct (check _) as [[]| | |] eqn:Ec; cbn [mbind outcome_bind]; try done. intros [= <- <- <-].
    apply ps_draws_ok in E as (Hl & Hnd & Hr); [|constructor|by intros ? ?%elem_of_nil].
    simpl in Hl.
    assert (Hnd' : NoDup (ys ++ [n])).
    { apply NoDup_app. split_and!; [done| |apply NoDup_singleton]. intros x Hx%Hr ->%elem_of_list_singleton. lia. }
    split_and!; [done|rewrite app_length; simpl; lia|done| |].
    + intros x [Hx%Hr| ->%elem_of_list_singleton]%elem_of_app; lia.
    + destruct (decide (n < ps_n s)).
      * left. split_and!; [rewrite app_length; simpl; lia|done|].
        intros x [Hx%Hr| ->%elem_of_list_singleton]%elem_of_app; lia.
      * right. exists ys. assert (n = ps_n s) as -> by lia. split; [done|]. intros y Hy%Hr. lia.
Qed.

Lemma prosac_first_lemma fuel m conv r s' r' xs : 1 <= m ->
  ps_sample fuel m (PS m conv 1) r [] = Ok (s', r', xs) -> m ∈ xs.
Proof.
  intros Hm. unfold ps_sample. cbn [ps_n ps_k ps_convergence]. change (Z.to_nat 1) with 1%nat. cbn [ps_grow].
  rewrite decide_False by lia. rewrite decide_False by (by vm_compute).
  destruct (ps_draws _ _ _ _ _) as [[ys r1]| | |]; cbn [mbind outcome_bind]; try done. simpl app.
  destruct (check _) as [[]| | |]; cbn [mbind outcome_bind]; try done. intros [= <- <- <-].
  apply elem_of_app. right. by left.
Qed.

(** Termination: enough fuel exists when every value appears again and again in the stream. *)

Lemma fair_tail r : fair r -> fair (stail r).
Proof.
  intros Hf b x n Hx. destruct (Hf b x (S n) Hx) as (k & Hk & E). destruct k as [|k]; [lia|].
  exists k. split; [lia|done].
Qed.

Lemma ps_draw_mono fuel fuel' hi used r x r' : (fuel <= fuel')%nat ->
  ps_draw fuel hi used r = Ok (x, r') -> ps_draw fuel' hi used r = Ok (x, r').
Proof.
  revert fuel' r. induction fuel as [|fuel IH]; intros fuel' r Hle; cbn [ps_draw]; [done|].
  destruct fuel' as [|fuel']; [lia|]. cbn [ps_draw].
  destruct (rand_int 0 hi r) as [[y r1]| | |]; cbn [mbind outcome_bind]; try done.
  destruct (decide (y ∈ used)); [apply IH; lia|done].
Qed.

Lemma ps_draws_mono fuel fuel' count : forall hi used r xs r', (fuel <= fuel')%nat ->
  ps_draws fuel count hi used r = Ok (xs, r') -> ps_draws fuel' count hi used r = Ok (xs, r').
Proof.
  induction count as [|count IH]; intros hi used r xs r' Hle; cbn [ps_draws]; [done|].
  destruct (ps_draw fuel hi used r) as [[y r1]| | |] eqn:E; cbn [mbind outcome_bind]; try done.
  rewrite (ps_draw_mono fuel fuel' _ _ _ _ _ Hle E). cbn [mbind outcome_bind]. by apply IH.
Qed.

Lemma fresh_value hi used : Z.of_nat (length used) <= hi -> exists x, 0 <= x <= hi /\ x ∉ used.
Proof.
  intros Hlen. destruct (decide (Forall (fun x => x ∈ used) (seqZ 0 (hi + 1)))) as [Hall|Hn].
  - exfalso. assert (Hsub : seqZ 0 (hi + 1) ⊆+ used).
    { apply NoDup_submseteq; [apply NoDup_seqZ|]. rewrite Forall_forall in Hall. done. }
    apply submseteq_length in Hsub. rewrite seqZ_length in Hsub. lia.
  - apply not_Forall_Exists in Hn; [|apply _]. apply Exists_exists in Hn as (x & Hx & Hx').
    exists x. apply seqZ_props in Hx. split; [lia|done].
Qed.

Lemma ps_draw_total hi used r : fair r -> Z.of_nat (length used) <= hi ->
  exists fuel x r', ps_draw fuel hi used r = Ok (x, r') /\ fair r'.
Proof.
  intros Hf Hlen. destruct (fresh_value hi used Hlen) as (x & Hx & Hnew).
  destruct (Hf (hi + 1) x 0%nat ltac:(lia)) as (k & _ & Hk).
  revert r Hf Hk. induction k as [|k IH]; intros r Hf Hk.
  - exists 1%nat, x, (stail r). cbn [ps_draw]. unfold rand_int. rewrite decide_True by lia. cbn [mbind outcome_bind].
    replace (0 + shead r mod (hi - 0 + 1)) with x by (rewrite <-Hk; unfold shead; replace (hi - 0 + 1) with (hi + 1) by lia; done).
    rewrite decide_False by done. split; [done|by apply fair_tail].
  - destruct (IH (stail r) (fair_tail r Hf) Hk) as (fuel & y & r' & E & Hf').
    set (z := shead r mod (hi - 0 + 1)). destruct (decide (z ∈ used)) as [Hin|Hout].
    + exists (S fuel), y, r'. cbn [ps_draw]. unfold rand_int. rewrite decide_True by lia. cbn [mbind outcome_bind].
      fold z. rewrite Z.add_0_l, decide_True by done. done.
    + exists 1%nat, z, (stail r). cbn [ps_draw]. unfold rand_int. rewrite decide_True by lia. cbn [mbind outcome_bind].
      fold z. rewrite Z.add_0_l, decide_False by done. split; [done|by apply fair_tail].
Qed.

Lemma ps_draws_total count : forall hi used r, fair r -> Z.of_nat (length used + count) <= hi + 1 ->
  exists fuel xs r', ps_draws fuel count hi used r = Ok (xs, r') /\ fair r' /\ length xs = (length used + count)%nat.
Proof.
  induction count as [|count IH]; intros hi used r Hf Hlen.
  - exists 0%nat, used, r. split_and!; [done|done|lia].
  - destruct (ps_draw_total hi used r Hf) as (f1 & x & r1 & E1 & Hf1); [lia|].
    destruct (IH hi (used ++ [x]) r1 Hf1) as (f2 & xs & r2 & E2 & Hf2 & Hl); [rewrite app_length; simpl; lia|].
    exists (f1 `max` f2)%nat, xs, r2. cbn [ps_draws].
    rewrite (ps_draw_mono f1 _ _ _ _ _ _ (Nat.le_max_l f1 f2) E1). cbn [mbind outcome_bind].
    rewrite (ps_draws_mono f2 _ _ _ _ _ _ _ (Nat.le_max_r f1 f2) E2).
    rewrite app_length in Hl. simpl in Hl. split_and!; [done|done|lia].
Qed.

Lemma prosac_terminates_lemma m s r : 1 <= m <= ps_n s -> fair r ->
  exists fuel s' r' xs, ps_sample fuel m s r [] = Ok (s', r', xs) /\ fair r'.
Proof.
  intros Hm Hf. unfold ps_sample.
  pose proof (ps_grow_range (Z.to_nat (ps_k s)) 1 m (ps_n s) (ps_t_n m (ps_n s) (ps_convergence s)) 1%Q m) as Hg.
  destruct (ps_grow _ _ _ _ _ _ _) as [tn' n]. cbn [snd] in Hg. specialize (Hg ltac:(lia)).
  destruct (decide (tn' < inject_Z (ps_k s))%Q) as [Hlt|Hge].
  - destruct (ps_draws_total (Z.to_nat m) (n - 1) [] r Hf) as (fuel & xs & r' & E & Hf' & Hl); [simpl; lia|].
    exists fuel. rewrite E. cbn [mbind outcome_bind]. simpl app. simpl in Hl.
    rewrite bool_decide_eq_true_2 by lia. cbn [check mbind outcome_bind]. eauto 10.
  - destruct (ps_draws_total (Z.to_nat (m - 1)) (n - 2) [] r Hf) as (fuel & xs & r' & E & Hf' & Hl); [simpl; lia|].
    exists fuel. rewrite E. cbn [mbind outcome_bind]. simpl app. simpl in Hl.
    rewrite bool_decide_eq_true_2 by (rewrite app_length; simpl; lia). cbn [check mbind outcome_bind]. eauto 10.
Qed.

Lemma rs_run_lemma m n k : 0 <= m <= n -> forall indices r, indices ≡ₚ seqZ 0 n ->
  exists xss, rs_run k m indices r = Ok xss /\ length xss = k /\ forall xs, xs ∈ xss -> good_sample m n xs.
Proof.
  intros Hm. induction k as [|k IH]; intros indices r Hp; cbn [rs_run].
  - exists []. split_and!; [done|done|]. by intros ? ?%elem_of_nil.
  - destruct (random_sampler_lemma m n indices r [] Hm Hp) as (xs & ind' & -> & Hg & Hp').
    cbn [mbind outcome_bind]. destruct (IH ind' (sdrop (Z.to_nat m) r) Hp') as (xss & -> & Hl & Hall).
    cbn [mbind outcome_bind]. exists (xs :: xss). split_and!; [done|simpl; lia|].
    intros ys [->|?]%elem_of_cons; auto.
Qed.

Lemma es_history_lemma ops s0 : es_new 2 = Ok s0 -> forall n, 2 <= n -> growing n ops ->
  exists s1 s, es_initialize s0 n = Ok s1 /\ run_steps es_step s1 ops = Ok s /\ es_valid s.
Proof.
  intros [= <-] n Hn Hg. unfold es_initialize at 1. rewrite bool_decide_eq_true_2 by lia.
  cbn [check mbind outcome_bind es_i es_j]. eexists. 
  assert (Hv : es_valid (ES n 0 1)) by (unfold es_valid; simpl; lia).
  assert (forall s, es_valid s -> growing (es_n s) ops -> exists s', run_steps es_step s ops = Ok s' /\ es_valid s') as H.
  { clear. induction ops as [|o ops IH]; intros s Hv Hg; [eauto|]. cbn [run_steps].
    destruct o as [n|]; cbn [es_step].
    - destruct Hg as [Hle Hg]. unfold es_initialize. destruct Hv as (? & ? & ?).
      rewrite bool_decide_eq_true_2 by lia. cbn [check mbind outcome_bind].
      apply IH; [|done]. unfold es_valid. simpl. lia.
    - destruct (es_step_pos s Hv) as (Hv' & Hn & _). cbn [mbind outcome_bind].
      apply IH; [done|]. by rewrite Hn. }
  destruct (H _ Hv Hg) as (s & Hs & ?). exists s. done.
Qed.
