(** Proofs about the closed-form polynomial solvers. *)
From stdpp Require Import prelude.
From Coq Require Import Reals Lra.
From Coquelicot Require Import Complex.
From Verif Require Import ClosedForm_Model ClosedForm_Spec.
Open Scope C_scope.

(** Numerals, for ring and field. *)
Lemma num_xO p : RtoC (IZR (Zpos (xO p))) = (RtoC 1 + RtoC 1) * RtoC (IZR (Zpos p)).
Proof.
  rewrite <- RtoC_plus, <- RtoC_mult. f_equal.
  rewrite (Pos2Z.inj_xO p), mult_IZR. ring.
Qed.
Lemma num_xI p : RtoC (IZR (Zpos (xI p))) = RtoC 1 + (RtoC 1 + RtoC 1) * RtoC (IZR (Zpos p)).
Proof.
  rewrite <- RtoC_plus, <- RtoC_mult, <- RtoC_plus. f_equal.
  rewrite (Pos2Z.inj_xI p), plus_IZR, mult_IZR. ring.
Qed.
Lemma num_neg p : RtoC (IZR (Zneg p)) = - RtoC (IZR (Zpos p)).
Proof. rewrite <- RtoC_opp. done. Qed.
Ltac nums := repeat (rewrite ?num_neg, ?num_xO, ?num_xI).
Ltac push := repeat (rewrite ?RtoC_plus, ?RtoC_minus, ?RtoC_mult, ?RtoC_opp).
Lemma num_nonzero p : RtoC (IZR (Zpos p)) <> RtoC 0.
Proof. intros H. apply RtoC_inj in H. apply eq_IZR in H. done. Qed.
Lemma RtoC_nonzero x : x <> 0%R -> RtoC x <> RtoC 0.
Proof. intros H1 H2. apply RtoC_inj in H2. done. Qed.

Goal forall x y : C, (RtoC 3 * x + y) * (x - y) = RtoC 3 * x * x - RtoC 2 * x * y - y * y.
Proof. intros. nums. ring. Qed.

Lemma C_eq (z w : C) : fst z = fst w -> snd z = snd w -> z = w.
Proof. destruct z, w; simpl; intros; congruence. Qed.
Lemma C_mult_integral (z w : C) : z * w = RtoC 0 -> z = RtoC 0 \/ w = RtoC 0.
Proof.
  intros H. destruct (Ceq_dec z (RtoC 0)) as [?|Hz]; [by left|]. right.
  replace w with (/ z * (z * w)) by (field; done). rewrite H. ring.
Qed.

(** Quadratics. *)
Lemma rdiv_ok x y : y <> 0%R -> rdiv x y = Some (x / y)%R.
Proof. intros H. unfold rdiv. by destruct (Req_EM_T y 0). Qed.

Lemma solve_quadratic_ok a b c : a <> 0%R -> ~ (b = 0%R /\ c = 0%R) ->
  exists r s, solve_quadratic a b c = [Some r; Some s] /\
    forall x, quadratic a b c x = RtoC a * (x - r) * (x - s).
Proof.
  intros Ha Hbc. unfold solve_quadratic. destruct (Req_EM_T a 0) as [|_]; [done|].
  destruct (Rle_dec 0 (b * b - 4 * a * c)) as [HD|HD].
  - rewrite Rabs_pos_eq by done. set (S := sqrt (b * b - 4 * a * c)).
    assert (HS : (S * S = b * b - 4 * a * c)%R) by (apply sqrt_sqrt; done).
    assert (HS0 : (0 <= S)%R) by apply sqrt_pos.
    assert (Hsum : forall r s : R, (b = - a * (r + s))%R -> (c = a * r * s)%R -> forall x : C,
      quadratic a b c x = RtoC a * (x - RtoC r) * (x - RtoC s)).
    { intros r s -> -> x. unfold quadratic. push. ring. }
    assert (Hc : (c = (b * b - S * S) / (4 * a))%R) by (rewrite HS; field; done).
    destruct (Rle_dec 0 b) as [Hb|Hb].
    + assert (Hne : (- b - S <> 0)%R).
      { intros H. apply Hbc. assert (b = 0)%R by lra. assert (S = 0)%R by lra. split; [done|].
        assert (a * c = 0)%R by (rewrite H0, H1 in HS; lra).
        apply Rmult_integral in H2 as [?|?]; done. }
      rewrite !rdiv_ok by lra. do 2 eexists. split; [done|]. apply Hsum; rewrite Hc; field; lra.
    + assert (Hne : (- b + S <> 0)%R) by lra.
      rewrite !rdiv_ok by lra. do 2 eexists. split; [done|]. apply Hsum; rewrite Hc; field; lra.
  - rewrite Rabs_left by lra. set (S := sqrt (- (b * b - 4 * a * c))).
    assert (HS : (S * S = - (b * b - 4 * a * c))%R) by (apply sqrt_sqrt; lra).
    assert (Hc : (c = (b * b + S * S) / (4 * a))%R) by (rewrite HS; field; done).
    do 2 eexists. split; [done|]. intros [x y]. unfold quadratic.
    apply C_eq; cbn; rewrite ?Hc; field; done.
Qed.
Lemma solve_linear_ok b c : b <> 0%R ->
  exists r, solve_quadratic 0 b c = [Some r] /\ forall x, quadratic 0 b c x = RtoC b * (x - r).
Proof.
  intros Hb. unfold solve_quadratic. destruct (Req_EM_T 0 0) as [_|]; [|done]. rewrite rdiv_ok by done.
  eexists. split; [done|]. intros x. unfold quadratic. cbn [real option_map].
  assert (H : RtoC c = - RtoC b * RtoC (-1 * c / b)).
  { rewrite <- RtoC_opp, <- RtoC_mult. f_equal. field. done. }
  rewrite H. ring.
Qed.

(** Principal cube roots. *)
Definition cube (z : C) : C := z * (z * z).
Definition principal3 (z : C) : Prop := (Cmod z / 2 <= fst z)%R.

Lemma principal3_real z : principal3 z -> (0 <= fst z /\ snd z * snd z <= 3 * (fst z * fst z))%R.
Proof.
  unfold principal3. intros H. pose proof (Cmod_ge_0 z) as H0.
  assert (H2 : (Cmod z * Cmod z = fst z * fst z + snd z * snd z)%R).
  { unfold Cmod. rewrite sqrt_sqrt; [simpl; ring|]. simpl. nra. }
  split; [lra|]. nra.
Qed.

(** The cube root of a non-negative real number is a non-negative real number. *)
Lemma principal3_nonneg z x : principal3 z -> cube z = RtoC x -> (0 <= x)%R -> snd z = 0%R /\ (0 <= fst z)%R.
Proof.
  intros Hp Hz Hx. apply principal3_real in Hp as [H1 H2].
  assert (Hre : fst (cube z) = x) by (by rewrite Hz). assert (Him : snd (cube z) = 0%R) by (by rewrite Hz).
  unfold cube in Hre, Him. cbn in Hre, Him. destruct z as [a b]. cbn in *. split; [|done].
  assert (Hi : (b * (3 * (a * a) - b * b) = 0)%R) by lra.
  apply Rmult_integral in Hi as [?|Hi]; [done|].
  assert (Hb : (b * b = 3 * (a * a))%R) by lra.
  assert (Ha : (a * (a * a - 3 * (b * b)) = x)%R) by lra.
  rewrite Hb in Ha. assert (a = 0)%R.
  { destruct H1 as [H1|?]; [|done]. assert (0 < a * (a * a))%R by (repeat apply Rmult_lt_0_compat; done). lra. }
  subst a. nra.
Qed.

(** There is only one principal cube root of a number that is not real. *)
Lemma principal3_unique v w : principal3 v -> principal3 w -> cube v = cube w -> snd (cube w) <> 0%R -> v = w.
Proof.
  intros Hv Hw Hc Hs. apply principal3_real in Hv as [Hv1 Hv2]. apply principal3_real in Hw as [Hw1 Hw2].
  assert (H : (v - w) * (v * v + v * w + w * w) = RtoC 0).
  { replace ((v - w) * (v * v + v * w + w * w)) with (cube v - cube w) by (unfold cube; ring). rewrite Hc. ring. }
  apply C_mult_integral in H as [H|H].
  { replace v with ((v - w) + w) by ring. rewrite H. ring. }
  exfalso.
  set (s := sqrt 3). assert (Hss : (s * s = 3)%R) by (apply sqrt_sqrt; lra).
  assert (H2 : ((RtoC 1 + RtoC 1) * v + w - (0, s)%R * w) * ((RtoC 1 + RtoC 1) * v + w + (0, s)%R * w) = RtoC 0).
  { transitivity ((RtoC 1 + RtoC 1) * (RtoC 1 + RtoC 1) * (v * v + v * w + w * w)
                  - ((0, s)%R * (0, s)%R + RtoC 3) * w * w); [nums; ring|].
    rewrite H. replace ((0, s)%R * (0, s)%R) with (RtoC (-3)); [nums; ring|]. apply C_eq; cbn; nra. }
  destruct v as [c d], w as [a b]. cbn in *.
  assert (Hs' : (b * (3 * (a * a) - b * b) <> 0)%R) by (intros E; apply Hs; lra).
  assert (Hb0 : b <> 0%R) by (intros ->; apply Hs'; ring).
  assert (Hd0 : (b * b <> 3 * (a * a))%R) by (intros E; apply Hs'; rewrite E; ring).
  apply C_mult_integral in H2 as [H2|H2]; injection H2 as H2a H2b.
  - assert (E1 : (2 * c = - a - s * b)%R) by lra. assert (E2 : (2 * d = - b + s * a)%R) by lra.
    assert (F1 : (0 <= b * (b + s * a))%R).
    { assert ((2 * d) * (2 * d) <= 3 * ((2 * c) * (2 * c)))%R by lra. rewrite E1, E2 in H0.
      assert ((s * a) * (s * a) = 3 * (a * a))%R by nra.
      assert ((s * b) * (s * b) = 3 * (b * b))%R by nra. nra. }
    assert (0 <= s)%R by apply sqrt_pos.
    assert (b <= 0)%R. { destruct (Rle_dec b 0); [done|]. nra. }
    assert (b + s * a <= 0)%R by nra.
    assert (0 <= s * a)%R by (apply Rmult_le_pos; done).
    assert (0 <= (- (b + s * a)) * (- (b - s * a)))%R by (apply Rmult_le_pos; lra).
    assert ((s * a) * (s * a) = 3 * (a * a))%R by nra. apply Hd0. nra.
  - assert (E1 : (2 * c = - a + s * b)%R) by lra. assert (E2 : (2 * d = - b - s * a)%R) by lra.
    assert (F1 : (0 <= b * (b - s * a))%R).
    { assert ((2 * d) * (2 * d) <= 3 * ((2 * c) * (2 * c)))%R by lra. rewrite E1, E2 in H0.
      assert ((s * a) * (s * a) = 3 * (a * a))%R by nra.
      assert ((s * b) * (s * b) = 3 * (b * b))%R by nra. nra. }
    assert (0 <= s)%R by apply sqrt_pos.
    assert (0 <= b)%R. { destruct (Rle_dec 0 b); [done|]. nra. }
    assert (0 <= b - s * a)%R by nra.
    assert (0 <= s * a)%R by (apply Rmult_le_pos; done).
    assert (0 <= (b + s * a) * (b - s * a))%R by (apply Rmult_le_pos; lra).
    assert ((s * a) * (s * a) = 3 * (a * a))%R by nra. apply Hd0. nra.
Qed.

(** The cube roots of a negative number. *)
Lemma principal3_neg z x : principal3 z -> cube z = RtoC x -> (x < 0)%R ->
  (0 < fst z)%R /\ (snd z = sqrt 3 * fst z \/ snd z = - (sqrt 3 * fst z))%R.
Proof.
  intros Hp Hz Hx. apply principal3_real in Hp as [H1 H2].
  assert (Hre : fst (cube z) = x) by (by rewrite Hz). assert (Him : snd (cube z) = 0%R) by (by rewrite Hz).
  unfold cube in Hre, Him. cbn in Hre, Him. destruct z as [a b]. cbn in *.
  assert (Hss : (sqrt 3 * sqrt 3 = 3)%R) by (apply sqrt_sqrt; lra). set (s := sqrt 3) in *.
  assert (Hi : (b * (3 * (a * a) - b * b) = 0)%R) by lra.
  assert (Ha : (a * (a * a - 3 * (b * b)) = x)%R) by lra.
  assert (Ha0 : (0 < a)%R).
  { destruct H1 as [?|H1]; [done|]. subst a. exfalso. nra. }
  split; [done|].
  apply Rmult_integral in Hi as [->|Hi].
  - exfalso. assert (0 < a * (a * a))%R by (repeat apply Rmult_lt_0_compat; done). lra.
  - assert (Hf : ((b - s * a) * (b + s * a) = 0)%R) by nra.
    apply Rmult_integral in Hf as [?|?]; [left|right]; lra.
Qed.

Lemma real_cube_inj (x y : R) : (x * (x * x) = y * (y * y))%R -> x = y.
Proof.
  intros H. assert (Hf : ((x - y) * (x * x + x * y + y * y) = 0)%R) by lra.
  apply Rmult_integral in Hf as [?|Hf]; [lra|].
  assert (x * x + y * y + (x + y) * (x + y) = 0)%R by lra.
  pose proof (Rle_0_sqr x) as Hx. pose proof (Rle_0_sqr y) as Hy. pose proof (Rle_0_sqr (x + y)) as Hxy.
  unfold Rsqr in *.
  assert (x * x = 0)%R as Hx0 by lra. assert (y * y = 0)%R as Hy0 by lra.
  apply Rmult_integral in Hx0, Hy0. destruct Hx0, Hy0; lra.
Qed.
Lemma real_cube_root (t : C) (k : R) : snd t = 0%R -> cube t = RtoC (k * (k * k)) -> t = RtoC k.
Proof.
  intros Ht Hc. destruct t as [a b]. cbn in Ht. subst b. unfold cube in Hc. injection Hc as Hc1 _.
  assert (a * (a * a) = k * (k * k))%R by lra. apply real_cube_inj in H. by subst a.
Qed.

Lemma cube_conj (z : C) : Cconj (cube z) = cube (Cconj z).
Proof. unfold cube, Cconj. apply C_eq; cbn; ring. Qed.

Section Cubic.
  Context (F : complex_roots).
  Context (p q : R).
  Let temp : R := (q * q / 4 + p * p * p / 27)%R.
  Let S : C := csqrt F (RtoC temp).
  Let A : C := RtoC (-0.5 * q) + S.
  Let B : C := RtoC (-0.5 * q) - S.
  Let u : C := ccbrt F false A.
  Let v : C := ccbrt F true B.

  Lemma cu : cube u = A. Proof. apply (ccbrt_cube F). Qed.
  Lemma cv : cube v = B. Proof. apply (ccbrt_cube F). Qed.
  Lemma cubes_sum : cube u + cube v = - RtoC q.
  Proof.
    rewrite cu, cv. unfold A, B. replace (RtoC (-0.5 * q)) with (- RtoC (q / 2)).
    - replace (RtoC q) with (RtoC (q / 2) + RtoC (q / 2)) by (rewrite <- RtoC_plus; f_equal; lra). ring.
    - rewrite <- RtoC_opp. f_equal. lra.
  Qed.
  Lemma cubes_product : cube (u * v) = RtoC ((- p / 3) * ((- p / 3) * (- p / 3))).
  Proof.
    replace (cube (u * v)) with (cube u * cube v) by (unfold cube; ring). rewrite cu, cv. unfold A, B.
    transitivity (RtoC (-0.5 * q) * RtoC (-0.5 * q) - S * S); [ring|].
    unfold S. rewrite csqrt_square, <- RtoC_mult, <- RtoC_minus. f_equal. unfold temp. lra.
  Qed.

  (** The square root is real or imaginary. *)
  Lemma sqrt_real : (0 <= temp)%R -> snd S = 0%R /\ (0 <= fst S)%R.
  Proof.
    intros Ht. pose proof (csqrt_square F (RtoC temp)) as H. pose proof (csqrt_principal F (RtoC temp)) as H0.
    fold S in H, H0. destruct S as [a b]. injection H as H1 H2. cbn in *. split; [|done].
    assert (Hab : (a * b = 0)%R) by lra. apply Rmult_integral in Hab as [->|?]; [|done]. nra.
  Qed.
  Lemma sqrt_imag : (temp < 0)%R -> fst S = 0%R /\ snd S <> 0%R.
  Proof.
    intros Ht. pose proof (csqrt_square F (RtoC temp)) as H.
    fold S in H. destruct S as [a b]. injection H as H1 H2. cbn in *.
    assert (Hb : b <> 0%R) by (intros ->; nra).
    assert (Hab : (a * b = 0)%R) by lra. apply Rmult_integral in Hab as [?|?]; done.
  Qed.
  Lemma A_real : (0 <= temp)%R -> A = RtoC (- q / 2 + fst S).
  Proof. intros Ht. destruct (sqrt_real Ht) as [H1 _]. unfold A. apply C_eq; cbn; rewrite ?H1; lra. Qed.
  Lemma B_real : (0 <= temp)%R -> B = RtoC (- q / 2 - fst S).
  Proof. intros Ht. destruct (sqrt_real Ht) as [H1 _]. unfold B. apply C_eq; cbn; rewrite ?H1; lra. Qed.
  Lemma fst_S_square : (0 <= temp)%R -> (fst S * fst S = temp)%R.
  Proof.
    intros Ht. destruct (sqrt_real Ht) as [H1 _]. pose proof (csqrt_square F (RtoC temp)) as H. fold S in H.
    destruct S as [a b]. cbn in *. subst b. injection H as H _. lra.
  Qed.

  Lemma product_real : (p < 0)%R -> snd (u * v) = 0%R.
  Proof.
    intros Hp. destruct (Rlt_dec temp 0) as [Ht|Ht].
    - destruct (sqrt_imag Ht) as [H1 H2].
      assert (Hv : v = Cconj u).
      { apply principal3_unique.
        - apply (ccbrt_principal F).
        - unfold principal3. replace (Cmod (Cconj u)) with (Cmod u).
          + apply (ccbrt_principal F).
          + unfold Cmod, Cconj. cbn. f_equal. ring.
        - rewrite cv. replace (cube (Cconj u)) with (Cconj (cube u)).
          + rewrite cu. unfold A, B. apply C_eq; cbn; rewrite ?H1; lra.
          + apply cube_conj.
        - replace (cube (Cconj u)) with (Cconj (cube u)) by apply cube_conj.
          rewrite cu. unfold A. cbn. lra. }
      rewrite Hv. cbn. ring.
    - assert (Ht' : (0 <= temp)%R) by lra. destruct (sqrt_real Ht') as [H1 H2]. pose proof (fst_S_square Ht') as H3.
      assert (Hlt : (fst S * fst S < (q / 2) * (q / 2))%R).
      { rewrite H3. unfold temp.
        assert (0 < (- p) * ((- p) * (- p)))%R by (repeat apply Rmult_lt_0_compat; lra). lra. }
      destruct (Rle_dec q 0) as [Hq|Hq].
      + destruct (principal3_nonneg u (- q / 2 + fst S)) as [Hu _];
          [apply (ccbrt_principal F)|rewrite cu; by apply A_real|lra|].
        destruct (principal3_nonneg v (- q / 2 - fst S)) as [Hv _];
          [apply (ccbrt_principal F)|rewrite cv; by apply B_real|nra|].
        cbn. rewrite Hu, Hv. ring.
      + destruct (principal3_neg u (- q / 2 + fst S)) as [Hu0 Hu];
          [apply (ccbrt_principal F)|rewrite cu; by apply A_real|nra|].
        destruct (principal3_neg v (- q / 2 - fst S)) as [Hv0 Hv];
          [apply (ccbrt_principal F)|rewrite cv; by apply B_real|lra|].
        assert (Hs3 : (0 < sqrt 3)%R) by (apply sqrt_lt_R0; lra).
        assert (Hu1 : (0 <= snd u)%R) by (unfold u; rewrite (A_real Ht'); apply (ccbrt_above F)).
        assert (Hv1 : (snd v <= 0)%R) by (unfold v; rewrite (B_real Ht'); apply (ccbrt_below F)).
        assert (0 < sqrt 3 * fst u)%R by (apply Rmult_lt_0_compat; done).
        assert (0 < sqrt 3 * fst v)%R by (apply Rmult_lt_0_compat; done).
        destruct Hu as [Hu|Hu]; [|lra]. destruct Hv as [Hv|Hv]; [lra|]. cbn. rewrite Hu, Hv. ring.
  Qed.
  Lemma product_third : (p < 0)%R -> u * v = RtoC (- p / 3).
  Proof. intros Hp. apply real_cube_root; [by apply product_real|apply cubes_product]. Qed.

  (** For positive [p] the two cube roots do not fit together. *)
  Lemma positive_case : (0 < p)%R -> (0 < fst u)%R /\ snd u = 0%R /\ (0 < fst v)%R /\ snd v <> 0%R.
  Proof.
    intros Hp.
    assert (Hp3 : (0 < p * (p * p))%R) by (repeat apply Rmult_lt_0_compat; lra).
    assert (Ht' : (0 <= temp)%R) by (unfold temp; nra).
    destruct (sqrt_real Ht') as [H1 H2]. pose proof (fst_S_square Ht') as H3.
    assert (Hlt : ((q / 2) * (q / 2) < fst S * fst S)%R) by (rewrite H3; unfold temp; lra).
    assert (HA : (0 < - q / 2 + fst S)%R) by nra. assert (HB : (- q / 2 - fst S < 0)%R) by nra.
    destruct (principal3_nonneg u (- q / 2 + fst S)) as [Hu Hu0];
      [apply (ccbrt_principal F)|rewrite cu; by apply A_real|lra|].
    destruct (principal3_neg v (- q / 2 - fst S)) as [Hv0 Hv];
      [apply (ccbrt_principal F)|rewrite cv; by apply B_real|lra|].
    assert (Hs3 : (0 < sqrt 3)%R) by (apply sqrt_lt_R0; lra).
    assert (0 < sqrt 3 * fst v)%R by (apply Rmult_lt_0_compat; done).
    split_and!; [|done|done|lra].
    destruct Hu0 as [?|Hu0]; [done|]. exfalso.
    assert (Hc : fst (cube u) = (- q / 2 + fst S)%R) by (rewrite cu, (A_real Ht'); done).
    unfold cube in Hc. cbn in Hc. rewrite Hu, <- Hu0 in Hc. lra.
  Qed.
End Cubic.

(** Cardano's formula. *)
Lemma cardano (p q : R) (u v om x : C) : u * v = RtoC (- p / 3) -> cube u + cube v = - RtoC q ->
  om * om + om + RtoC 1 = RtoC 0 ->
  x * x * x + RtoC p * x + RtoC q =
  (x - (u + v)) * (x - (u * om + v * om * om)) * (x - (u * om * om + v * om)).
Proof.
  intros Huv Hc Hom. assert (Hom2 : om * om = - RtoC 1 - om).
  { replace (om * om) with ((om * om + om + RtoC 1) - RtoC 1 - om) by ring. rewrite Hom. ring. }
  assert (Hp : RtoC p = - (RtoC 1 + RtoC 1 + RtoC 1) * (u * v)).
  { rewrite Huv. rewrite <- !RtoC_plus, <- RtoC_opp, <- RtoC_mult. f_equal. field. }
  assert (Hq : RtoC q = - (cube u + cube v)) by (rewrite Hc; ring).
  rewrite Hp, Hq. unfold cube.
  replace (u * om + v * om * om) with (u * om + v * (om * om)) by ring.
  replace (u * om * om + v * om) with (u * (om * om) + v * om) by ring. rewrite Hom2.
  assert (E : (x - (u * om + v * (- RtoC 1 - om))) * (x - (u * (- RtoC 1 - om) + v * om)) =
    x * x + (u + v) * x + u * u + v * v - u * v).
  { transitivity (x * x + (u + v) * x + (u - v) * (u - v) * (- (om * om) - om) + u * v); [ring|]. rewrite Hom2. ring. }
  replace ((x - (u + v)) * (x - (u * om + v * (- RtoC 1 - om))) * (x - (u * (- RtoC 1 - om) + v * om)))
    with ((x - (u + v)) * ((x - (u * om + v * (- RtoC 1 - om))) * (x - (u * (- RtoC 1 - om) + v * om)))) by ring.
  rewrite E. ring.
Qed.
Definition omega3 : C := (-0.5, 0.5 * sqrt 3)%R.
Lemma omega3_ok : omega3 * omega3 + omega3 + RtoC 1 = RtoC 0.
Proof.
  assert (Hss : (sqrt 3 * sqrt 3 = 3)%R) by (apply sqrt_sqrt; lra). unfold omega3.
  apply C_eq; cbn; nra.
Qed.

(** Reduction to the depressed cubic. *)
Definition dep_p (a b c : R) : R := ((3 * a * c - b * b) / (3 * a * a))%R.
Definition dep_q (a b c d : R) : R := ((2 * b * b * b - 9 * a * b * c + 27 * a * a * d) / (27 * a * a * a))%R.
Lemma depress a b c d (x : C) : a <> 0%R ->
  cubic a b c d x =
  RtoC a * ((x + RtoC (b / (3 * a))) * (x + RtoC (b / (3 * a))) * (x + RtoC (b / (3 * a)))
            + RtoC (dep_p a b c) * (x + RtoC (b / (3 * a))) + RtoC (dep_q a b c d)).
Proof.
  intros Ha. unfold cubic. set (h := (b / (3 * a))%R).
  assert (Hb : b = (3 * a * h)%R) by (unfold h; field; done).
  assert (Hc : c = (a * (dep_p a b c + 3 * h * h))%R) by (unfold dep_p, h; field; done).
  assert (Hd : d = (a * (dep_q a b c d + dep_p a b c * h + h * h * h))%R) by (unfold dep_p, dep_q, h; field; done).
  set (P := dep_p a b c) in *. set (Q := dep_q a b c d) in *.
  assert (E1 : RtoC b = RtoC a * (RtoC 1 + RtoC 1 + RtoC 1) * RtoC h)
    by (rewrite Hb at 1; rewrite <- !RtoC_plus, <- !RtoC_mult; f_equal; ring).
  assert (E2 : RtoC c = RtoC a * (RtoC P + (RtoC 1 + RtoC 1 + RtoC 1) * RtoC h * RtoC h))
    by (rewrite Hc at 1; rewrite <- !RtoC_plus, <- !RtoC_mult, <- !RtoC_plus, <- !RtoC_mult; f_equal; ring).
  assert (E3 : RtoC d = RtoC a * (RtoC Q + RtoC P * RtoC h + RtoC h * RtoC h * RtoC h))
    by (rewrite Hd at 1; rewrite <- !RtoC_mult, <- !RtoC_plus, <- !RtoC_mult; done).
  rewrite E1, E2, E3. ring.
Qed.

Lemma dep_p_sign a b c : a <> 0%R ->
  ((dep_p a b c < 0 <-> 3 * a * c < b * b) /\ (dep_p a b c = 0 <-> 3 * a * c = b * b) /\
   (0 < dep_p a b c <-> b * b < 3 * a * c))%R.
Proof.
  intros Ha. assert (Haa : (0 < 3 * a * a)%R) by nra.
  assert (Hi : (0 < / (3 * a * a))%R) by (by apply Rinv_0_lt_compat).
  assert (E : (dep_p a b c * (3 * a * a) = 3 * a * c - b * b)%R) by (unfold dep_p; field; done).
  set (P := dep_p a b c) in *. split_and!; split; intros H.
  - nra.
  - destruct (Rlt_dec P 0); [done|]. exfalso. nra.
  - rewrite H in E. lra.
  - assert (P * (3 * a * a) = 0)%R by lra. apply Rmult_integral in H0 as [?|?]; lra.
  - nra.
  - destruct (Rlt_dec 0 P); [done|]. exfalso. nra.
Qed.

Lemma solve_cubic_ok F a b c d : a <> 0%R -> (3 * a * c < b * b)%R ->
  exists r0 r1 r2, solve_cubic F a b c d = [Some r0; Some r1; Some r2] /\
    forall x, cubic a b c d x = RtoC a * (x - r0) * (x - r1) * (x - r2).
Proof.
  intros Ha Hp. apply (dep_p_sign a b c Ha) in Hp.
  unfold solve_cubic. destruct (Req_EM_T a 0) as [|_]; [done|]. fold (dep_p a b c) (dep_q a b c d).
  unfold solve_depressed_cubic. destruct (Req_EM_T (dep_p a b c) 0) as [|_]; [lra|].
  fold omega3. cbn [map option_map]. do 3 eexists. split; [done|].
  intros x. rewrite depress by done.
  rewrite (cardano _ _ _ _ omega3 _ (product_third F _ (dep_q a b c d) Hp) (cubes_sum F _ _) omega3_ok). ring.
Qed.

Lemma solve_cubic_wrong F a b c d : a <> 0%R -> (b * b < 3 * a * c)%R ->
  exists r0 r1 r2, solve_cubic F a b c d = [Some r0; Some r1; Some r2] /\ cubic a b c d r0 <> RtoC 0.
Proof.
  intros Ha Hp. apply (dep_p_sign a b c Ha) in Hp.
  unfold solve_cubic. destruct (Req_EM_T a 0) as [|_]; [done|]. fold (dep_p a b c) (dep_q a b c d).
  unfold solve_depressed_cubic. destruct (Req_EM_T (dep_p a b c) 0) as [|_]; [lra|].
  fold omega3. cbn [map option_map]. do 3 eexists. split; [done|].
  rewrite depress by done.
  pose proof (positive_case F _ (dep_q a b c d) Hp) as (Hu & Hu0 & Hv & Hv0).
  pose proof (cubes_sum F (dep_p a b c) (dep_q a b c d)) as Hs.
  set (u := ccbrt F false _) in *. set (v := ccbrt F true _) in *.
  set (P := dep_p a b c) in *. set (Q := dep_q a b c d) in *. set (h := (b / (3 * a))%R).
  replace (u + v - RtoC h + RtoC h) with (u + v) by ring.
  assert (Hq : RtoC Q = - (cube u + cube v)) by (rewrite Hs; ring). rewrite Hq. unfold cube.
  replace (RtoC a * ((u + v) * (u + v) * (u + v) + RtoC P * (u + v) + - (u * (u * u) + v * (v * v))))
    with (RtoC a * (((RtoC 1 + RtoC 1 + RtoC 1) * (u * v) + RtoC P) * (u + v))) by ring.
  intros H. apply C_mult_integral in H as [H|H]; [by apply RtoC_inj in H|].
  apply C_mult_integral in H as [H|H].
  - assert (H' : snd ((RtoC 1 + RtoC 1 + RtoC 1) * (u * v) + RtoC P) = 0%R) by (by rewrite H).
    destruct u as [u1 u2], v as [v1 v2]. cbn in *. subst u2.
    assert (Hm : (u1 * v2 = 0)%R) by lra. apply Rmult_integral in Hm as [?|?]; lra.
  - assert (H' : fst (u + v) = 0%R) by (by rewrite H). cbn in H'. lra.
Qed.

Lemma solve_cubic_zero F a b c d : a <> 0%R -> (3 * a * c = b * b)%R ->
  if Rlt_dec 0 (dep_q a b c d)
  then solve_cubic F a b c d = [None]
  else exists r, solve_cubic F a b c d = [Some r] /\ cubic a b c d r = RtoC 0.
Proof.
  intros Ha Hp. apply (dep_p_sign a b c Ha) in Hp.
  assert (E : solve_cubic F a b c d =
    [option_map (fun z => z - RtoC (b / (3 * a))) (real (rcbrt (-1 * dep_q a b c d)))]).
  { unfold solve_cubic. destruct (Req_EM_T a 0) as [|_]; [done|]. fold (dep_p a b c) (dep_q a b c d).
    unfold solve_depressed_cubic. destruct (Req_EM_T (dep_p a b c) 0) as [_|]; done. }
  rewrite E. unfold rcbrt. set (Q := dep_q a b c d) in *.
  assert (Hroot : forall r : R, (r * r * r + Q = 0)%R -> cubic a b c d (RtoC r - RtoC (b / (3 * a))) = RtoC 0).
  { intros r Hr. rewrite depress by done. rewrite Hp. fold Q. set (h := RtoC (b / (3 * a))).
    replace (RtoC r - h + h) with (RtoC r) by ring.
    replace (RtoC r * RtoC r * RtoC r + RtoC 0 * RtoC r + RtoC Q) with (RtoC 0); [ring|].
    rewrite <- !RtoC_mult, <- !RtoC_plus. f_equal. lra. }
  destruct (Rlt_dec 0 Q) as [HQ|HQ].
  - destruct (Req_EM_T (-1 * Q) 0); [lra|]. destruct (Rlt_dec (-1 * Q) 0); [done|lra].
  - destruct (Req_EM_T (-1 * Q) 0).
    + eexists. split; [done|]. apply Hroot. lra.
    + destruct (Rlt_dec (-1 * Q) 0); [lra|]. eexists. split; [done|]. apply Hroot.
      assert (HQ0 : (0 < -1 * Q)%R) by lra.
      assert (H3 : (Rpower (-1 * Q) (/ 3) * Rpower (-1 * Q) (/ 3) * Rpower (-1 * Q) (/ 3) = -1 * Q)%R).
      { rewrite <- !Rpower_plus. replace (/ 3 + / 3 + / 3)%R with 1%R by field. by apply Rpower_1. }
      rewrite H3. lra.
Qed.

(** The quartic. *)
Definition quartic_y F sgR sgQ (alpha P Q : R) : C :=
  let U := ccbrt F sgR (q_R F P Q) in
  if Rlt_dec (Rabs (fst U)) (1 / 100000000)%R
  then RtoC (-5 * alpha / 6) - ccbrt F sgQ (RtoC Q)
  else RtoC (-5 * alpha / 6) - RtoC P / (RtoC 3 * U) + U.

Lemma q_R_equation F P Q : let R := q_R F P Q in R * R + RtoC Q * R = RtoC (P * P * P / 27).
Proof.
  intros R. unfold R, q_R. set (S := csqrt F _).
  assert (HS : S * S = RtoC (Q * Q / 4 + P * P * P / 27)) by apply csqrt_square.
  assert (HQ : - RtoC Q / RtoC 2 = RtoC (- Q / 2)).
  { rewrite <- RtoC_opp, <- RtoC_div by lra. done. }
  rewrite HQ.
  transitivity (S * S + RtoC (- Q / 2) * RtoC (- Q / 2) + RtoC Q * RtoC (- Q / 2)
                + (RtoC (- Q / 2) + RtoC (- Q / 2) + RtoC Q) * S); [ring|].
  rewrite HS. rewrite <- !RtoC_mult, <- !RtoC_plus.
  replace (- Q / 2 + - Q / 2 + Q)%R with 0%R by lra.
  rewrite Cmult_0_l, Cplus_0_r. f_equal. lra.
Qed.

Lemma quartic_y_depressed F sgR sgQ alpha P Q :
  q_R F P Q = RtoC 0 \/ (1 / 100000000 <= fst (ccbrt F sgR (q_R F P Q)))%R ->
  let z := quartic_y F sgR sgQ alpha P Q + RtoC (5 * alpha / 6) in
  z * z * z + RtoC P * z + RtoC Q = RtoC 0.
Proof.
  intros H. unfold quartic_y. pose proof (q_R_equation F P Q) as HR. cbn zeta in *.
  set (R := q_R F P Q) in *. set (U := ccbrt F sgR R) in *.
  assert (HU : U * (U * U) = R) by apply ccbrt_cube.
  assert (H5 : RtoC (-5 * alpha / 6) = - RtoC (5 * alpha / 6)) by (rewrite <- RtoC_opp; f_equal; lra).
  rewrite H5. set (h := RtoC (5 * alpha / 6)).
  destruct H as [H|H].
  - assert (HU0 : U = RtoC 0).
    { rewrite H in HU. apply C_mult_integral in HU as [?|HU]; [done|]. apply C_mult_integral in HU as [?|?]; done. }
    rewrite HU0. change (fst (RtoC 0)) with 0%R. rewrite Rabs_R0. destruct (Rlt_dec 0 (1 / 100000000)) as [_|Hn]; [|lra].
    set (T := ccbrt F sgQ (RtoC Q)). assert (HT : T * (T * T) = RtoC Q) by apply ccbrt_cube.
    assert (HP : P = 0%R).
    { rewrite H in HR. replace (RtoC 0 * RtoC 0 + RtoC Q * RtoC 0) with (RtoC 0) in HR by ring.
      apply RtoC_inj in HR. assert (P * (P * P) = 0 * (0 * 0))%R by lra. by apply real_cube_inj. }
    rewrite HP, <- HT. ring.
  - destruct (Rlt_dec (Rabs (fst U)) (1 / 100000000)) as [Hn|_].
    { exfalso. rewrite Rabs_pos_eq in Hn; lra. }
    assert (HU0 : U <> RtoC 0).
    { intros E. rewrite E in H. cbn in H. lra. }
    assert (HR0 : R <> RtoC 0).
    { intros E. rewrite <- HU in E. apply C_mult_integral in E as [?|E]; [done|].
      apply C_mult_integral in E as [?|?]; done. }
    set (t := RtoC (P / 3)).
    assert (HP : RtoC P = (RtoC 1 + RtoC 1 + RtoC 1) * t)
      by (unfold t; rewrite <- !RtoC_plus, <- RtoC_mult; f_equal; lra).
    assert (Ht : t * t * t = R * R + RtoC Q * R).
    { rewrite HR. unfold t. rewrite <- !RtoC_mult. f_equal. field. }
    assert (HQ : RtoC Q = (t * t * t) / R - R) by (rewrite Ht; field; done).
    assert (H3 : (RtoC 1 + RtoC 1 + RtoC 1) <> RtoC 0).
    { rewrite <- !RtoC_plus. intros E. apply RtoC_inj in E. lra. }
    replace (RtoC 3) with (RtoC 1 + RtoC 1 + RtoC 1) by (rewrite <- !RtoC_plus; f_equal; lra).
    rewrite HP, HQ, <- HU. field. split; [done|]. intros E. injection E. lra.
Qed.

(** Ferrari's resolvent. *)
Lemma resolvent (alpha beta gamma : R) (y : C) :
  let z := y + RtoC (5 * alpha / 6) in
  z * z * z + RtoC (q_P alpha gamma) * z + RtoC (q_Q alpha beta gamma) = RtoC 0 ->
  RtoC beta * RtoC beta =
  (RtoC 1 + RtoC 1) * (RtoC 1 + RtoC 1) * (RtoC alpha + (RtoC 1 + RtoC 1) * y) *
  (y * y + (RtoC 1 + RtoC 1) * RtoC alpha * y + RtoC alpha * RtoC alpha - RtoC gamma).
Proof.
  intros z Hz. unfold z in Hz. set (k := (alpha / 6)%R).
  assert (Ha : alpha = (6 * k)%R) by (unfold k; lra).
  assert (E1 : RtoC (5 * alpha / 6) = (RtoC 1 + RtoC 1 + RtoC 1 + RtoC 1 + RtoC 1) * RtoC k).
  { rewrite <- !RtoC_plus, <- RtoC_mult. f_equal. unfold k. lra. }
  assert (E2 : RtoC (q_P alpha gamma) = - (RtoC 1 + RtoC 1 + RtoC 1) * RtoC k * RtoC k - RtoC gamma).
  { rewrite <- !RtoC_plus, <- !RtoC_opp, <- !RtoC_mult, <- RtoC_minus. f_equal. unfold q_P, k. lra. }
  set (m := (beta * beta / 8)%R).
  assert (E3 : RtoC (q_Q alpha beta gamma) =
    - (RtoC 1 + RtoC 1) * RtoC k * RtoC k * RtoC k + (RtoC 1 + RtoC 1) * RtoC k * RtoC gamma - RtoC m).
  { rewrite <- !RtoC_plus, <- !RtoC_opp, <- !RtoC_mult, <- RtoC_plus, <- RtoC_minus. f_equal. unfold q_Q, k, m. lra. }
  assert (E4 : RtoC beta * RtoC beta = (RtoC 1 + RtoC 1) * (RtoC 1 + RtoC 1) * (RtoC 1 + RtoC 1) * RtoC m).
  { rewrite <- !RtoC_plus, <- !RtoC_mult. f_equal. unfold m. lra. }
  assert (E5 : RtoC alpha = (RtoC 1 + RtoC 1) * (RtoC 1 + RtoC 1 + RtoC 1) * RtoC k).
  { rewrite <- !RtoC_plus, <- !RtoC_mult. f_equal. unfold k. lra. }
  rewrite E4, E5. rewrite E1, E2, E3 in Hz.
  match type of Hz with ?L = _ => assert (Hm : RtoC m = L + RtoC m) by (rewrite Hz; ring) end.
  rewrite Hm. ring.
Qed.

Lemma depress4 a b c d e (x : C) : a <> 0%R ->
  let t := x - RtoC (- b / (4 * a)) in
  quartic a b c d e x =
  RtoC a * (t * t * t * t + RtoC (q_alpha a b c) * t * t + RtoC (q_beta a b c d) * t + RtoC (q_gamma a b c d e)).
Proof.
  intros Ha t. set (h := (b / (4 * a))%R).
  assert (Ht : t = x + RtoC h).
  { unfold t. replace (RtoC (- b / (4 * a))) with (- RtoC h); [ring|].
    rewrite <- RtoC_opp. f_equal. unfold h. field. done. }
  set (al := q_alpha a b c). set (be := q_beta a b c d). set (ga := q_gamma a b c d e).
  assert (Hb : b = (4 * a * h)%R) by (unfold h; field; done).
  assert (Hc : c = (a * (al + 6 * h * h))%R) by (unfold al, q_alpha, h; field; done).
  assert (Hd : d = (a * (be + 2 * al * h + 4 * h * h * h))%R) by (unfold be, q_beta, al, q_alpha, h; field; done).
  assert (He : e = (a * (ga + be * h + al * h * h + h * h * h * h))%R)
    by (unfold ga, q_gamma, be, q_beta, al, q_alpha, h; field; done).
  assert (E1 : RtoC b = RtoC a * (RtoC 1 + RtoC 1 + RtoC 1 + RtoC 1) * RtoC h).
  { rewrite <- !RtoC_plus, <- !RtoC_mult. f_equal. rewrite Hb at 1. ring. }
  assert (E2 : RtoC c = RtoC a * (RtoC al + (RtoC 1 + RtoC 1 + RtoC 1 + RtoC 1 + RtoC 1 + RtoC 1) * RtoC h * RtoC h)).
  { rewrite <- !RtoC_plus, <- !RtoC_mult, <- RtoC_plus, <- RtoC_mult. f_equal. rewrite Hc at 1. ring. }
  assert (E3 : RtoC d = RtoC a * (RtoC be + (RtoC 1 + RtoC 1) * RtoC al * RtoC h
                                  + (RtoC 1 + RtoC 1 + RtoC 1 + RtoC 1) * RtoC h * RtoC h * RtoC h)).
  { rewrite <- !RtoC_plus, <- !RtoC_mult, <- !RtoC_plus, <- RtoC_mult. f_equal. rewrite Hd at 1. ring. }
  assert (E4 : RtoC e = RtoC a * (RtoC ga + RtoC be * RtoC h + RtoC al * RtoC h * RtoC h
                                  + RtoC h * RtoC h * RtoC h * RtoC h)).
  { rewrite <- !RtoC_mult, <- !RtoC_plus, <- RtoC_mult. f_equal. rewrite He at 1. ring. }
  rewrite Ht. unfold quartic. rewrite E1, E2, E3, E4. ring.
Qed.

Lemma ferrari (alpha beta gamma : R) (y w s1 s2 t : C) :
  w <> RtoC 0 -> w * w = RtoC alpha + RtoC 2 * y ->
  s1 * s1 = - (RtoC (3 * alpha) + RtoC 2 * y + RtoC (2 * beta) / w) ->
  s2 * s2 = - (RtoC (3 * alpha) + RtoC 2 * y - RtoC (2 * beta) / w) ->
  RtoC beta * RtoC beta =
  (RtoC 1 + RtoC 1) * (RtoC 1 + RtoC 1) * (RtoC alpha + (RtoC 1 + RtoC 1) * y) *
  (y * y + (RtoC 1 + RtoC 1) * RtoC alpha * y + RtoC alpha * RtoC alpha - RtoC gamma) ->
  t * t * t * t + RtoC alpha * t * t + RtoC beta * t + RtoC gamma =
  (t - RtoC 0.5 * (w + s1)) * (t - RtoC 0.5 * (w - s1)) * (t - RtoC 0.5 * (- w + s2)) * (t - RtoC 0.5 * (- w - s2)).
Proof.
  intros Hw0 Hw Hs1 Hs2 Hb.
  assert (H2 : RtoC 2 = RtoC 1 + RtoC 1) by (rewrite <- RtoC_plus; f_equal; lra).
  set (hf := RtoC 0.5). assert (Hhf : (RtoC 1 + RtoC 1) * hf = RtoC 1).
  { unfold hf. rewrite <- RtoC_plus, <- RtoC_mult. f_equal. lra. }
  assert (H3 : RtoC (3 * alpha) = (RtoC 1 + RtoC 1 + RtoC 1) * RtoC alpha).
  { rewrite <- !RtoC_plus, <- RtoC_mult. f_equal. lra. }
  assert (H2b : RtoC (2 * beta) = (RtoC 1 + RtoC 1) * RtoC beta).
  { rewrite <- RtoC_plus, <- RtoC_mult. f_equal. }
  rewrite H2 in *. rewrite H3, H2b in *.
  set (al := RtoC alpha) in *. set (be := RtoC beta) in *. set (ga := RtoC gamma) in *. set (two := RtoC 1 + RtoC 1) in *.
  assert (F1 : (t - hf * (w + s1)) * (t - hf * (w - s1)) = t * t - w * t + al + y + hf * be / w).
  { transitivity (t * t - two * hf * w * t + hf * hf * (w * w - s1 * s1)); [unfold two; ring|].
    rewrite Hhf, Hw, Hs1.
    transitivity (t * t - w * t + (two * hf) * (two * hf) * (al + y) + (two * hf) * hf * be / w); [unfold two; field; done|].
    rewrite Hhf. field. done. }
  assert (F2 : (t - hf * (- w + s2)) * (t - hf * (- w - s2)) = t * t + w * t + al + y - hf * be / w).
  { transitivity (t * t + two * hf * w * t + hf * hf * (w * w - s2 * s2)); [unfold two; ring|].
    rewrite Hhf, Hw, Hs2.
    transitivity (t * t + w * t + (two * hf) * (two * hf) * (al + y) - (two * hf) * hf * be / w); [unfold two; field; done|].
    rewrite Hhf. field. done. }
  replace ((t - hf * (w + s1)) * (t - hf * (w - s1)) * (t - hf * (- w + s2)) * (t - hf * (- w - s2)))
    with (((t - hf * (w + s1)) * (t - hf * (w - s1))) * ((t - hf * (- w + s2)) * (t - hf * (- w - s2)))) by ring.
  rewrite F1, F2.
  transitivity (t * t * t * t + two * (al + y) * t * t + (al + y) * (al + y) - w * w * t * t
                + (two * hf) * be * t - (hf * hf) * (be * be) / (w * w)); [|unfold two; field; done].
  rewrite Hhf, Hb, Hw.
  assert (Hn : al + two * y <> RtoC 0).
  { rewrite <- Hw. intros E. apply C_mult_integral in E as [?|?]; done. }
  transitivity (t * t * t * t + two * (al + y) * t * t + (al + y) * (al + y) - (al + two * y) * t * t
    + RtoC 1 * be * t - ((two * hf) * (two * hf)) * (y * y + two * al * y + al * al - ga)).
  - rewrite Hhf. unfold two. ring.
  - field. done.
Qed.

Lemma solve_quartic_ok F sgR sgQ a b c d e :
  let P := q_P (q_alpha a b c) (q_gamma a b c d e) in
  let Q := q_Q (q_alpha a b c) (q_beta a b c d) (q_gamma a b c d e) in
  a <> 0%R -> q_beta a b c d <> 0%R ->
  q_R F P Q = RtoC 0 \/ (1 / 100000000 <= fst (ccbrt F sgR (q_R F P Q)))%R ->
  exists r0 r1 r2 r3, solve_quartic F sgR sgQ a b c d e = Some [r0; r1; r2; r3] /\
    forall x, quartic a b c d e x = RtoC a * (x - r0) * (x - r1) * (x - r2) * (x - r3).
Proof.
  intros P Q Ha Hb HU. pose proof (quartic_y_depressed F sgR sgQ (q_alpha a b c) P Q HU) as Hy.
  apply resolvent in Hy. unfold solve_quartic. destruct (Req_EM_T a 0) as [|_]; [done|].
  fold P Q. fold (quartic_y F sgR sgQ (q_alpha a b c) P Q).
  set (y := quartic_y F sgR sgQ (q_alpha a b c) P Q) in *.
  set (al := q_alpha a b c) in *. set (be := q_beta a b c d) in *. set (ga := q_gamma a b c d e) in *.
  set (w := csqrt F (RtoC al + RtoC 2 * y)).
  assert (Hw : w * w = RtoC al + RtoC 2 * y) by apply csqrt_square.
  assert (H2 : RtoC 2 = RtoC 1 + RtoC 1) by (rewrite <- RtoC_plus; f_equal; lra).
  destruct (Ceq_dec w (RtoC 0)) as [Hw0|Hw0].
  { exfalso. rewrite Hw0 in Hw. rewrite H2 in Hw.
    assert (E : RtoC be * RtoC be = RtoC 0).
    { rewrite Hy, <- Hw. ring. }
    rewrite <- RtoC_mult in E. apply RtoC_inj, Rmult_integral in E as [?|?]; done. }
  do 4 eexists. split; [done|]. intros x. rewrite depress4 by done.
  fold al be ga. set (h := RtoC (- b / (4 * a))).
  rewrite (ferrari al be ga y w _ _ (x - h) Hw0 Hw (csqrt_square F _) (csqrt_square F _) Hy). ring.
Qed.

(** The biquadratic x^4 - 1. *)
Lemma solve_quartic_biquadratic F sgR sgQ : solve_quartic F sgR sgQ 1 0 0 0 (-1) = None.
Proof.
  unfold solve_quartic. destruct (Req_EM_T 1 0) as [|_]; [lra|].
  assert (Hal : q_alpha 1 0 0 = 0%R) by (unfold q_alpha; lra).
  assert (Hbe : q_beta 1 0 0 0 = 0%R) by (unfold q_beta; lra).
  assert (Hga : q_gamma 1 0 0 0 (-1) = (-1)%R) by (unfold q_gamma; lra).
  rewrite Hal, Hbe, Hga.
  assert (HP : q_P 0 (-1) = 1%R) by (unfold q_P; lra). assert (HQ : q_Q 0 0 (-1) = 0%R) by (unfold q_Q; lra).
  rewrite HP, HQ.
  set (U := ccbrt F sgR (q_R F 1 0)).
  assert (HU : U * (U * U) = q_R F 1 0) by apply ccbrt_cube.
  pose proof (ccbrt_principal F sgR (q_R F 1 0)) as Hp. fold U in Hp.
  pose proof (csqrt_square F (RtoC (0 * 0 / 4 + 1 * 1 * 1 / 27))) as HS.
  pose proof (csqrt_principal F (RtoC (0 * 0 / 4 + 1 * 1 * 1 / 27))) as HS0.
  assert (HR : q_R F 1 0 = csqrt F (RtoC (0 * 0 / 4 + 1 * 1 * 1 / 27))).
  { unfold q_R. rewrite <- RtoC_opp, <- RtoC_div by lra. replace (- 0 / 2)%R with 0%R by lra. apply Cplus_0_l. }
  set (S := csqrt F (RtoC (0 * 0 / 4 + 1 * 1 * 1 / 27))) in *.
  assert (HSr : snd S = 0%R /\ (0 <= fst S)%R /\ (fst S * fst S = 1 / 27)%R).
  { destruct S as [x0 y0]. injection HS as H1 H2. cbn in *.
    assert (Hxy : (x0 * y0 = 0)%R) by lra. apply Rmult_integral in Hxy as [-> | ->]; [exfalso; nra|].
    split_and!; [done|done|lra]. }
  destruct HSr as (HS1 & HS2 & HS3).
  assert (HUr : snd U = 0%R /\ (0 <= fst U)%R).
  { apply (principal3_nonneg U (fst S)); [done| |done]. unfold cube. rewrite HU, HR. apply C_eq; cbn; [done|done]. }
  destruct HUr as [HU1 HU2].
  assert (HU3 : (fst U * fst U = 1 / 3)%R).
  { assert (E : (fst U * (fst U * fst U) = fst S)%R).
    { assert (E' : fst (U * (U * U)) = fst S) by (by rewrite HU, HR). cbn in E'. rewrite HU1 in E'. lra. }
    apply real_cube_inj. rewrite <- E in HS3. lra. }
  assert (HUge : (1 / 2 <= fst U)%R) by nra.
  destruct (Rlt_dec (Rabs (fst U)) (1 / 100000000)) as [Hn|_].
  { exfalso. rewrite Rabs_pos_eq in Hn; lra. }
  assert (HUU : U = RtoC (fst U)) by (apply C_eq; [done|exact HU1]).
  assert (Hy : RtoC 0 + RtoC 2 * (RtoC (-5 * 0 / 6) - RtoC 1 / (RtoC 3 * U) + U) = RtoC 0).
  { rewrite HUU. set (f := fst U) in *. rewrite <- RtoC_mult, <- RtoC_div by lra.
    rewrite <- RtoC_minus, <- RtoC_plus, <- RtoC_mult, <- RtoC_plus. f_equal.
    assert (1 / (3 * f) = f)%R by (apply (Rmult_eq_reg_l (3 * f)); [field_simplify; lra|lra]). rewrite H. lra. }
  rewrite Hy. set (w := csqrt F (RtoC 0)). destruct (Ceq_dec w (RtoC 0)) as [|Hw]; [done|].
  exfalso. assert (E : w * w = RtoC 0) by apply csqrt_square. apply C_mult_integral in E as [?|?]; done.
Qed.

(** The principal roots exist. *)
Lemma Cmod_square z : (Cmod z * Cmod z = fst z * fst z + snd z * snd z)%R.
Proof. unfold Cmod. rewrite sqrt_sqrt; [cbn; ring|]. cbn. nra. Qed.
Lemma Cmod_ge_fst z : (Rabs (fst z) <= Cmod z)%R.
Proof.
  apply Rsqr_incr_0_var; [|apply Cmod_ge_0]. rewrite <- Rsqr_abs. unfold Rsqr. rewrite Cmod_square. nra.
Qed.
Definition std_csqrt (z : C) : C :=
  (sqrt ((Cmod z + fst z) / 2), if Rlt_dec (snd z) 0 then - sqrt ((Cmod z - fst z) / 2) else sqrt ((Cmod z - fst z) / 2))%R.
Lemma std_csqrt_square z : std_csqrt z * std_csqrt z = z.
Proof.
  pose proof (Cmod_ge_fst z) as H. pose proof (Cmod_square z) as H2. unfold std_csqrt.
  assert (H1 : (0 <= (Cmod z + fst z) / 2)%R) by (unfold Rabs in H; destruct Rcase_abs in H; lra).
  assert (H3 : (0 <= (Cmod z - fst z) / 2)%R) by (unfold Rabs in H; destruct Rcase_abs in H; lra).
  assert (E : (sqrt ((Cmod z + fst z) / 2) * sqrt ((Cmod z - fst z) / 2) = Rabs (snd z) / 2)%R).
  { rewrite <- sqrt_mult by done.
    replace ((Cmod z + fst z) / 2 * ((Cmod z - fst z) / 2))%R with (Rsqr (Rabs (snd z) / 2)).
    - rewrite sqrt_Rsqr; [done|]. pose proof (Rabs_pos (snd z)). lra.
    - unfold Rsqr. replace (Rabs (snd z) / 2 * (Rabs (snd z) / 2))%R with ((Rabs (snd z) * Rabs (snd z)) / 4)%R by field.
      rewrite <- Rabs_mult, Rabs_pos_eq by nra. lra. }
  pose proof (sqrt_sqrt _ H1) as Q1. pose proof (sqrt_sqrt _ H3) as Q3.
  set (s1 := sqrt ((Cmod z + fst z) / 2)) in *. set (s2 := sqrt ((Cmod z - fst z) / 2)) in *.
  destruct (Rlt_dec (snd z) 0) as [Hn|Hn]; apply C_eq; cbn.
  - lra.
  - rewrite Rabs_left in E by done. lra.
  - lra.
  - rewrite Rabs_pos_eq in E by lra. lra.
Qed.

Definition std_arg (sg : bool) (z : C) : R :=
  if Ceq_dec z (RtoC 0) then 0%R
  else let t := acos (fst z / Cmod z) in
       if Rlt_dec (snd z) 0 then (- t)%R else if Rlt_dec 0 (snd z) then t else if sg then (- t)%R else t.
Definition std_ccbrt (sg : bool) (z : C) : C :=
  let r := if Ceq_dec z (RtoC 0) then 0%R else Rpower (Cmod z) (/ 3) in
  (r * cos (std_arg sg z / 3), r * sin (std_arg sg z / 3))%R.
Lemma std_arg_polar sg z : z = (Cmod z * cos (std_arg sg z), Cmod z * sin (std_arg sg z))%R.
Proof.
  unfold std_arg. destruct (Ceq_dec z (RtoC 0)) as [->|Hz].
  { rewrite Cmod_0. apply C_eq; cbn; ring. }
  apply Cmod_gt_0 in Hz. pose proof (Cmod_ge_fst z) as H. pose proof (Cmod_square z) as H2.
  set (m := Cmod z) in *. destruct z as [x y]. cbn in *.
  assert (Hr : (-1 <= x / m <= 1)%R).
  { unfold Rabs in H. destruct Rcase_abs in H; split;
      apply (Rmult_le_reg_r m); try done; field_simplify; lra. }
  assert (Hc : cos (acos (x / m)) = (x / m)%R) by (by apply cos_acos).
  assert (Hs : (m * sin (acos (x / m)) = Rabs y)%R).
  { assert (Hs0 : (0 <= sin (acos (x / m)))%R) by (apply sin_ge_0; apply acos_bound).
    pose proof (sin2_cos2 (acos (x / m))) as Hsc. rewrite Hc in Hsc. unfold Rsqr in Hsc.
    set (s := sin (acos (x / m))) in *. clear Hc.
    assert (E : ((m * s) * (m * s) = y * y)%R).
    { replace (m * s * (m * s))%R with (m * m * (s * s))%R by ring.
      replace (s * s)%R with (1 - x / m * (x / m))%R by lra.
      replace (m * m * (1 - x / m * (x / m)))%R with (m * m - x * x)%R by (field; lra). lra. }
    rewrite <- (Rabs_pos_eq (m * s)) by (apply Rmult_le_pos; lra).
    apply Rsqr_eq_abs_0. exact E. }
  assert (Hx : (m * (x / m) = x)%R) by (field; lra).
  destruct (Rlt_dec y 0) as [Hy|Hy]; [|destruct (Rlt_dec 0 y) as [Hy'|Hy']; [|destruct sg]];
    rewrite ?cos_neg, ?sin_neg, ?Hc, ?Hx; apply C_eq; cbn; try done; unfold Rabs in Hs; destruct Rcase_abs in Hs; lra.
Qed.
Lemma std_arg_bound sg z : (- PI <= std_arg sg z <= PI)%R.
Proof.
  unfold std_arg. pose proof PI_RGT_0. pose proof (acos_bound (fst z / Cmod z)).
  destruct (Ceq_dec z (RtoC 0)); [lra|]. destruct (Rlt_dec _ _); [lra|]. destruct (Rlt_dec _ _); [lra|]. destruct sg; lra.
Qed.
Lemma triple_angle (r t : R) : cube (r * cos t, r * sin t)%R = (r * (r * r) * cos (3 * t), r * (r * r) * sin (3 * t))%R.
Proof.
  replace (3 * t)%R with (t + (t + t))%R by ring. rewrite !cos_plus, !sin_plus, !cos_plus. unfold cube.
  apply C_eq; cbn; ring.
Qed.
Lemma std_ccbrt_cube sg z : std_ccbrt sg z * (std_ccbrt sg z * std_ccbrt sg z) = z.
Proof.
  fold (cube (std_ccbrt sg z)). unfold std_ccbrt. rewrite triple_angle.
  replace (3 * (std_arg sg z / 3))%R with (std_arg sg z) by field.
  assert (Hm : forall r, r = (if Ceq_dec z (RtoC 0) then 0%R else Rpower (Cmod z) (/ 3)) -> (r * (r * r) = Cmod z)%R).
  { intros r ->. destruct (Ceq_dec z (RtoC 0)) as [->|Hz]; [rewrite Cmod_0; ring|].
    rewrite <- !Rpower_plus. replace (/ 3 + (/ 3 + / 3))%R with 1%R by field. apply Rpower_1. by apply Cmod_gt_0. }
  rewrite (Hm _ eq_refl). symmetry. apply std_arg_polar.
Qed.
Lemma std_ccbrt_principal sg z : (Cmod (std_ccbrt sg z) / 2 <= fst (std_ccbrt sg z))%R.
Proof.
  unfold std_ccbrt. set (r := if Ceq_dec z (RtoC 0) then 0%R else Rpower (Cmod z) (/ 3)).
  assert (Hr : (0 <= r)%R).
  { unfold r. destruct (Ceq_dec z (RtoC 0)); [lra|]. left. apply exp_pos. }
  set (t := (std_arg sg z / 3)%R).
  assert (Hmod : Cmod (r * cos t, r * sin t)%R = r).
  { unfold Cmod. cbn. replace (r * cos t * (r * cos t * 1) + r * sin t * (r * sin t * 1))%R
      with (Rsqr r * (Rsqr (sin t) + Rsqr (cos t)))%R by (unfold Rsqr; ring).
    rewrite sin2_cos2, Rmult_1_r. by apply sqrt_Rsqr. }
  rewrite Hmod. cbn.
  assert (Hc : (/ 2 <= cos t)%R).
  { pose proof (std_arg_bound sg z) as Hb. pose proof PI_RGT_0.
    assert (Ht : (- (PI / 3) <= t <= PI / 3)%R) by (unfold t; lra).
    replace (/ 2)%R with (cos (PI / 3)) by (rewrite cos_PI3; lra).
    destruct (Rle_dec 0 t).
    - apply cos_decr_1; lra.
    - rewrite <- (cos_neg t). apply cos_decr_1; lra. }
  nra.
Qed.
Lemma std_ccbrt_sign x : (0 <= snd (std_ccbrt false (RtoC x)))%R /\ (snd (std_ccbrt true (RtoC x)) <= 0)%R.
Proof.
  unfold std_ccbrt, std_arg. cbn [snd fst]. pose proof PI_RGT_0.
  destruct (Ceq_dec (RtoC x) (RtoC 0)); [rewrite !Rmult_0_l; lra|].
  cbn [RtoC snd fst]. destruct (Rlt_dec 0 0) as [|_]; [lra|].
  set (m := Cmod (RtoC x)). set (t := acos (x / m)).
  assert (Ht : (0 <= t <= PI)%R) by apply acos_bound.
  assert (Hr : (0 < Rpower m (/ 3))%R) by apply exp_pos.
  assert (Hs : (0 <= sin (t / 3))%R) by (apply sin_ge_0; lra).
  split; [nra|]. replace (- t / 3)%R with (- (t / 3))%R by field. rewrite sin_neg. nra.
Qed.
Definition std_roots : complex_roots := {|
  csqrt := std_csqrt; ccbrt := std_ccbrt;
  csqrt_square := std_csqrt_square; csqrt_principal := fun z => sqrt_pos _;
  ccbrt_cube := std_ccbrt_cube; ccbrt_principal := std_ccbrt_principal;
  ccbrt_above := fun x => proj1 (std_ccbrt_sign x); ccbrt_below := fun x => proj2 (std_ccbrt_sign x) |}.

(** The variants that keep the roots with a small imaginary part. *)
Lemma real_parts_within_iff tol roots x :
  x ∈ real_parts_within tol roots <-> exists z, Some z ∈ roots /\ fst z = x /\ (Rabs (snd z) < tol)%R.
Proof.
  induction roots as [|[z|] roots IH]; cbn.
  - split; [by intros ?%elem_of_nil|intros (z & ?%elem_of_nil & _); done].
  - destruct (Rlt_dec (Rabs (snd z)) tol) as [H|H]; rewrite ?elem_of_cons, IH; split.
    + intros [->|(w & ? & ? & ?)]; [exists z; split_and!; [left|done|done]|exists w; split_and!; [by right|done|done]].
    + intros (w & [[= ->]|Hw]%elem_of_cons & <- & ?); [by left|right; by exists w].
    + intros (w & ? & ? & ?); exists w; split_and!; [by right|done|done].
    + intros (w & [[= ->]|Hw]%elem_of_cons & ? & ?); [done|by exists w].
  - rewrite IH. split.
    + intros (w & ? & ? & ?); exists w; split_and!; [by right|done|done].
    + intros (w & [|Hw]%elem_of_cons & ? & ?); [done|by exists w].
Qed.
Lemma real_root_within tol roots (x : R) : (0 < tol)%R -> Some (RtoC x) ∈ roots -> x ∈ real_parts_within tol roots.
Proof. intros Ht H. apply real_parts_within_iff. exists (RtoC x). cbn. rewrite Rabs_R0. done. Qed.
Lemma sub_zero (x r : C) : x - r = RtoC 0 -> r = x.
Proof. intros H. replace r with (x - (x - r)) by ring. rewrite H. ring. Qed.

Lemma solve_cubic_reals_ok F tol a b c d x : (0 < tol)%R -> a <> 0%R -> (3 * a * c < b * b)%R ->
  cubic a b c d (RtoC x) = RtoC 0 -> x ∈ real_parts_within tol (solve_cubic F a b c d).
Proof.
  intros Ht Ha Hp Hx. destruct (solve_cubic_ok F a b c d Ha Hp) as (r0 & r1 & r2 & E & Hf).
  apply real_root_within; [done|]. rewrite E. rewrite Hf in Hx.
  apply C_mult_integral in Hx as [Hx|Hx]; [apply C_mult_integral in Hx as [Hx|Hx];
    [apply C_mult_integral in Hx as [Hx|Hx]; [by apply RtoC_inj in Hx|]|]|];
    apply sub_zero in Hx; subst; rewrite !elem_of_cons; auto.
Qed.
Lemma solve_quadratic_reals_ok tol a b c x : (0 < tol)%R -> a <> 0%R -> ~ (b = 0%R /\ c = 0%R) ->
  quadratic a b c (RtoC x) = RtoC 0 -> x ∈ real_parts_within tol (solve_quadratic a b c).
Proof.
  intros Ht Ha Hp Hx. destruct (solve_quadratic_ok a b c Ha Hp) as (r0 & r1 & E & Hf).
  apply real_root_within; [done|]. rewrite E. rewrite Hf in Hx.
  apply C_mult_integral in Hx as [Hx|Hx];
    [apply C_mult_integral in Hx as [Hx|Hx]; [by apply RtoC_inj in Hx|]|];
    apply sub_zero in Hx; subst; rewrite !elem_of_cons; auto.
Qed.
Lemma real_cubic a b c d (x : R) : cubic a b c d (RtoC x) = RtoC (a * x * x * x + b * x * x + c * x + d).
Proof. unfold cubic. by rewrite !RtoC_plus, !RtoC_mult. Qed.
Lemma real_quadratic a b c (x : R) : quadratic a b c (RtoC x) = RtoC (a * x * x + b * x + c).
Proof. unfold quadratic. by rewrite !RtoC_plus, !RtoC_mult. Qed.
