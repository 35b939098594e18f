(** Proofs about the feature matcher. *)
From stdpp Require Import gmap strings.
From Verif Require Import Base FeatureMatcher_Model.

Lemma to_int_small z : (0 <= z < 2 ^ 31)%Z -> to_int z = z.
Proof. intros Hz. unfold to_int. rewrite Z.mod_small; lia. Qed.

Lemma chunk_loop_spec fuel n step i : (1 <= step <= 20)%Z -> (0 <= i)%Z -> (n + 20 < 2 ^ 31)%Z ->
  (Z.to_nat (n - i) < fuel)%nat ->
  exists cs, chunk_loop fuel n step i = Ok cs /\
    concat (map indices cs) = seq (Z.to_nat i) (Z.to_nat (n - i)) /\
    Forall (fun c => (0 <= c.1 < c.2 /\ c.2 <= n /\ c.2 - c.1 <= step)%Z) cs.
Proof.
  intros Hstep. revert i. induction fuel as [|fuel IH]; intros i Hi Hn Hf; [lia|]. cbn [chunk_loop].
  case_bool_decide as Hin.
  - rewrite bool_decide_eq_true_2 by lia.
    destruct (IH (i + step)%Z) as (cs & -> & Hc & Hall); [lia|lia|lia|].
    eexists. split; [done|]. split.
    + cbn [map concat]. rewrite Hc. unfold indices. cbn [fst snd].
      rewrite <-(Nat2Z.id (Z.to_nat (n - i))). destruct (decide (n <= i + step)%Z) as [Hle|Hgt].
      * rewrite Z.min_l by lia. replace (Z.to_nat (n - (i + step))) with 0 by lia. simpl. rewrite app_nil_r.
        f_equal. lia.
      * rewrite Z.min_r by lia. replace (Z.to_nat (i + step)) with (Z.to_nat i + Z.to_nat (i + step - i)) by lia.
        rewrite <-seq_app. f_equal. lia.
    + constructor; [|done]. cbn [fst snd]. lia.
  - exists []. split; [done|]. split; [|constructor]. simpl.
    by replace (Z.to_nat (n - i)) with 0 by lia.
Qed.

Lemma chunks_ok n threads : (1 <= n)%nat -> (Z.of_nat n + 20 < 2 ^ 31)%Z -> (1 <= threads)%Z ->
  exists cs, chunks n threads = Ok cs /\ concat (map indices cs) = seq 0 n /\
    Forall (fun c => (0 <= c.1 < c.2 /\ c.2 <= Z.of_nat n /\ c.2 - c.1 <= 20)%Z) cs.
Proof.
  intros Hn Hb Ht. unfold chunks. rewrite to_int_small by lia.
  rewrite bool_decide_eq_true_2 by lia. cbn [check mbind outcome_bind].
  set (th := Z.min threads (Z.of_nat n)).
  assert (1 <= Z.of_nat n / th)%Z.
  { apply Z.div_le_lower_bound; unfold th; lia. }
  destruct (chunk_loop_spec (S (Z.to_nat (Z.of_nat n))) (Z.of_nat n) (Z.min max_step (Z.of_nat n / th)) 0)
    as (cs & -> & Hc & Hall); [unfold max_step in *; lia|lia|lia|lia|].
  exists cs. split; [done|]. split.
  - rewrite Hc. f_equal. lia.
  - eapply Forall_impl; [exact Hall|]. intros c Hc'. unfold max_step in Hc'. lia.
Qed.

Lemma chunks_fail n threads : (Z.of_nat n + 20 < 2 ^ 31)%Z -> n = 0%nat \/ (threads < 1)%Z ->
  chunks n threads = CheckFail.
Proof.
  intros Hb Hor. unfold chunks. rewrite to_int_small by lia. rewrite bool_decide_eq_false_2; [done|].
  lia.
Qed.

(** ** All pairs *)

Lemma elem_of_all_pairs l a b :
  (a, b) ∈ all_pairs l <-> exists i j, (i < j)%nat /\ l !! i = Some a /\ l !! j = Some b.
Proof.
  induction l as [|x l IH]; simpl.
  { rewrite elem_of_nil. split; [done|]. intros (i & j & _ & Hi & _). by rewrite lookup_nil in Hi. }
  rewrite elem_of_app, IH, elem_of_list_fmap. split.
  - intros [(y & [= -> ->] & [j Hj]%elem_of_list_lookup)|(i & j & Hij & Hi & Hj)].
    + exists 0, (S j). split; [lia|]. done.
    + exists (S i), (S j). split; [lia|]. done.
  - intros ([|i] & [|j] & Hij & Hi & Hj); try lia.
    + left. simpl in Hi, Hj. injection Hi as ->. exists b. split; [done|]. by eapply elem_of_list_lookup_2.
    + right. exists i, j. split; [lia|]. done.
Qed.

Lemma all_pairs_NoDup l : NoDup l -> NoDup (all_pairs l).
Proof.
  induction 1 as [|x l Hx Hl IH]; simpl; [constructor|]. apply NoDup_app. split.
  - by apply (NoDup_fmap_2 (fun b => (x, b))).
  - split; [|done]. intros [a b] (y & [= -> ->] & Hy)%elem_of_list_fmap.
    intros (i & j & _ & Hi & _)%elem_of_all_pairs. apply Hx. by eapply elem_of_list_lookup_2.
Qed.

Lemma all_pairs_length l : (2 * length (all_pairs l) = length l * (length l - 1))%nat.
Proof.
  induction l as [|x l IH]; [done|]. cbn [all_pairs length]. rewrite app_length, map_length.
  destruct l as [|y l]; [done|]. cbn [length] in *. nia.
Qed.

(** ** The stored matches *)

Section exec.
Context {R : Type}.
Implicit Types (db : gmap image_pair R) (result : nat -> option R).

Lemma match_pairs_ok features pairs result db is :
  (forall i, i ∈ is -> exists p, pairs !! i = Some p /\ p.1 ∈ features /\ p.2 ∈ features) ->
  NoDup is -> NoDup pairs ->
  exists db', run_steps (match_pair features pairs result) db is = Ok db' /\
    (forall i p, i ∈ is -> pairs !! i = Some p ->
       db' !! p = match result i with Some r => Some r | None => db !! p end) /\
    (forall p, (forall i, i ∈ is -> pairs !! i ≠ Some p) -> db' !! p = db !! p).
Proof.
  intros Hall Hnd Hpairs. revert db. induction is as [|i is IH]; intros db.
  { exists db. split; [done|]. split; [|done]. intros i p Hi. by apply elem_of_nil in Hi. }
  apply NoDup_cons in Hnd as [Hi Hnd].
  destruct (Hall i) as (p & Hp & H1 & H2); [by left|].
  cbn [run_steps]. unfold match_pair at 2. rewrite Hp. cbn [or_ub mbind outcome_bind].
  rewrite !bool_decide_eq_true_2 by done. cbn [check mbind outcome_bind].
  set (db1 := match result i with Some r => <[p := r]> db | None => db end).
  destruct (IH ltac:(intros; apply Hall; by right) Hnd db1) as (db' & E & Hin & Hout).
  exists db'. split; [exact E|].
  assert (Hne : forall j, j ∈ is -> pairs !! j ≠ Some p).
  { intros j Hj Hpj. apply Hi. by rewrite (NoDup_lookup pairs i j p Hpairs Hp Hpj). }
  split.
  - intros j q [->|Hj]%elem_of_cons Hq.
    + assert (q = p) as -> by congruence. rewrite (Hout p Hne). unfold db1.
      destruct (result i); [by rewrite lookup_insert|done].
    + rewrite (Hin j q Hj Hq). destruct (result j); [done|]. unfold db1.
      destruct (result i); [|done]. rewrite lookup_insert_ne; [done|]. intros <-. by apply (Hne j).
  - intros q Hq. rewrite Hout by (intros; apply Hq; by right). unfold db1.
    destruct (result i); [|done]. rewrite lookup_insert_ne; [done|]. intros <-. apply (Hq i); [by left|done].
Qed.

Lemma match_images_pairs threads sched features result names pairs db :
  (1 <= threads)%Z -> (1 <= length pairs)%nat -> (Z.of_nat (length pairs) + 20 < 2 ^ 31)%Z ->
  (forall l, sched l ≡ₚ l) -> NoDup pairs ->
  (forall p, p ∈ pairs -> p.1 ∈ features /\ p.2 ∈ features) ->
  exists db', match_images threads sched features result (Matcher names pairs) db =
      Ok (Matcher names pairs, db') /\
    (forall i p, pairs !! i = Some p ->
       db' !! p = match result i with Some r => Some r | None => db !! p end) /\
    (forall p, p ∉ pairs -> db' !! p = db !! p).
Proof.
  intros Ht Hn Hb Hsched Hnd Hf. unfold match_images. cbn [fm_pairs fm_names].
  destruct pairs as [|p0 l0]; [simpl in Hn; lia|]. set (pairs := p0 :: l0) in *.
  cbn [mbind outcome_bind]. destruct (chunks_ok (length pairs) threads Hn Hb Ht) as (cs & -> & Hc & _).
  cbn [mbind outcome_bind]. rewrite Hc.
  destruct (match_pairs_ok features pairs result db (sched (seq 0 (length pairs)))) as (db' & -> & Hin & Hout).
  - intros i. rewrite Hsched, elem_of_seq. intros Hi.
    destruct (lookup_lt_is_Some_2 pairs i) as [p Hp]; [lia|]. exists p. split; [done|].
    apply Hf. by eapply elem_of_list_lookup_2.
  - rewrite Hsched. apply NoDup_seq.
  - done.
  - exists db'. split; [done|]. split.
    + intros i p Hp. apply Hin; [|done]. rewrite Hsched, elem_of_seq.
      apply lookup_lt_Some in Hp. lia.
    + intros p Hp. apply Hout. intros i _ Hi. apply Hp. by eapply elem_of_list_lookup_2.
Qed.

Lemma match_images_stored threads sched features result m db m' db' :
  match_images threads sched features result m db = Ok (m', db') ->
  fm_pairs m' = match fm_pairs m with [] => all_pairs (fm_names m) | l => l end.
Proof.
  unfold match_images. intros (pairs & E & (cs & _ & (db1 & _ & [= <- _])%bind_Ok)%bind_Ok)%bind_Ok.
  cbn [fm_pairs]. destruct (fm_pairs m); [|congruence]. unfold select_all_pairs in E.
  destruct (check _); simpl in E; congruence.
Qed.
End exec.
