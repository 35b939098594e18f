(** What calibration files keep, and how ReadCalibration treats the files it is given. *)
From stdpp Require Import gmap strings.
From Coq Require Import Ascii QArith Qabs Qcanon Lqa.
From Verif Require Import Base Calibration_Model Calibration_Spec Calibration_Numbers Calibration_Text Calibration_Parse.

(** * Writing and reading *)
Lemma written (o : order (string * calibration)) (m : gmap string calibration) : m <> ∅ -> exists np l, o (map_to_list m) = np :: l.
Proof.
  intros H. destruct (o (map_to_list m)) as [|np l] eqn:E; [|eauto]. exfalso. apply H. apply map_to_list_empty_iff. apply Permutation_nil_r. rewrite <- E. symmetry. apply ord_perm.
Qed.
(** C140.  With a JSON parser that understands JSON texts: the calibrations that can be stored and are written come back, with
    numbers of six digits; what the map already holds under other names is kept; nothing is written for no calibration. *)
Theorem calibration_round_trip parse (o : order (string * calibration)) (m m0 : gmap string calibration) :
  parser_ok parse -> map_Forall storable m ->
  (m = ∅ -> write_calibration o m = None) /\
  (m <> ∅ -> exists t m', write_calibration o m = Some t /\ read_calibration parse (Some t) m0 = Ok (true, m') /\
    (forall name p, m !! name = Some p -> exists q, m' !! name = Some q /\ same_calibration p q) /\
    (forall name, m !! name = None -> m' !! name = m0 !! name)).
Proof.
  intros Hparse Hm. split.
  - intros ->. unfold write_calibration. assert (E : o (map_to_list (∅ : gmap string calibration)) = []). { apply Permutation_nil_r. transitivity (map_to_list (∅ : gmap string calibration)); [|by rewrite map_to_list_empty]. symmetry. symmetry. apply ord_perm. } by rewrite E.
  - intros Hne. destruct (written o m Hne) as (np & l & E). assert (P : np :: l ≡ₚ map_to_list m) by (rewrite <- E; apply ord_perm).
    assert (Hs : Forall (fun np => storable np.1 np.2) (np :: l)). { rewrite P. apply Forall_forall. intros [name p] Hin. apply elem_of_map_to_list in Hin. by apply Hm. }
    assert (Hd : NoDup (fst <$> np :: l)). { rewrite P. apply NoDup_fst_map_to_list. }
    assert (exists t, write_calibration o m = Some t) as [t Et]. { unfold write_calibration. rewrite E. by eexists. }
    destruct (file_text o m np l t E Hs Et) as (t' & Ec & Hv). destruct (read_entries_ok (np :: l) m0 Hd Hs) as (m' & R & A & B).
    exists t, m'. split; [exact Et|]. split.
    + unfold read_calibration, extract_json. rewrite Ec, (Hparse _ _ Hv). change (default JNull (Some (document (np :: l)))) with (document (np :: l)).
      assert (D : member (document (np :: l)) "priors" = Ok (Some (JArray (prior_document <$> np :: l)))) by reflexivity. rewrite D. cbn [mbind outcome_bind]. rewrite R. reflexivity.
    + split.
      * intros name p Hp. apply A. rewrite P. by apply elem_of_map_to_list.
      * intros name Hn. apply B. rewrite P. intros Hin. apply elem_of_list_fmap in Hin as ([n p] & -> & Hin). apply elem_of_map_to_list in Hin. cbn in Hn. congruence.
Qed.
Print Assumptions calibration_round_trip.

(** The parser that is modelled is such a parser. *)
Theorem json_parser_exists : parser_ok json_parse.
Proof. exact json_parse_ok. Qed.
Print Assumptions json_parser_exists.

Definition some_calibration : calibration :=
  Calibration 640 480 "FISHEYE" (Field true [Q2Qc 300]) (Field true [Q2Qc (641 # 2); Q2Qc 240]) (no_field 1) (no_field 1)
    (Field true [Q2Qc (1 # 10); Q2Qc (- 1 # 100000); Q2Qc 0; Q2Qc 0]) (no_field 2) (no_field 3) (no_field 3) (Field true [Q2Qc (414033812 # 10000000)]) (no_field 1) (no_field 1).
Definition two_calibrations : gmap string calibration := {[ "a.jpg"%string := some_calibration; "b.jpg"%string := no_calibration ]}.
Ltac storable_tac := unfold storable; repeat (split; [first [apply plain_ok; vm_compute; reflexivity | vm_compute; reflexivity | unfold int32; vm_compute; split; congruence]|]); repeat constructor; apply Qle_bool_iff; vm_compute; reflexivity.
Example two_storable : map_Forall storable two_calibrations /\ two_calibrations <> ∅.
Proof.
  split.
  - unfold two_calibrations. apply map_Forall_insert_2; [storable_tac|]. apply map_Forall_singleton. storable_tac.
  - intros E. apply (f_equal (fun m : gmap string calibration => bool_decide (is_Some (m !! "a.jpg"%string)))) in E. vm_compute in E. discriminate.
Qed.

(** * What is lost *)
(** C141, refuted: a latitude of 41.4033812 comes back as 41.4034. *)
Theorem calibration_exact_refuted : exists (o : order (string * calibration)) m t m',
  map_Forall storable m /\ write_calibration o m = Some t /\ read_calibration json_parse (Some t) ∅ = Ok (true, m') /\
  exists p q, m !! "a.jpg"%string = Some p /\ m' !! "a.jpg"%string = Some q /\ value (c_latitude p) = [Q2Qc (414033812 # 10000000)] /\ value (c_latitude q) = [Q2Qc (414034 # 10000)].
Proof.
  set (m := {[ "a.jpg"%string := some_calibration ]} : gmap string calibration).
  assert (Hm : map_Forall storable m). { apply map_Forall_singleton. storable_tac. }
  assert (E : match write_calibration ord_id m with Some t => match read_calibration json_parse (Some t) ∅ with Ok (true, m') => (match m' !! "a.jpg"%string with Some q => value (c_latitude q) | None => [] end) = [Q2Qc (414034 # 10000)] | _ => False end | None => False end).
  { vm_compute. reflexivity. }
  destruct (write_calibration ord_id m) as [t|] eqn:Et; [|destruct E]. destruct (read_calibration json_parse (Some t) ∅) as [[[] m']| | |] eqn:Er; [|destruct E..].
  destruct (m' !! "a.jpg"%string) as [q|] eqn:Eq; [|discriminate E].
  exists ord_id, m, t, m'. split; [exact Hm|]. split; [exact Et|]. split; [exact Er|]. exists some_calibration, q. split; [apply lookup_singleton|]. split; [exact Eq|]. split; [reflexivity|exact E].
Qed.
Print Assumptions calibration_exact_refuted.

(** A name with a quote makes the file unreadable, and one can be made up that changes the rest of the entry. *)
Definition quoted : string := string_of_list_ascii (txt "a" ++ quote ++ txt ".jpg").
Definition forged : string := string_of_list_ascii (txt "a.jpg" ++ quote ++ txt ", " ++ quote ++ txt "focal_length" ++ quote ++ txt " : 7, " ++ quote ++ txt "note" ++ quote ++ txt " : " ++ quote).
Theorem calibration_name_refuted :
  (exists t, write_calibration ord_id {[ quoted := some_calibration ]} = Some t /\ read_calibration json_parse (Some t) ∅ = UB) /\
  (exists t m' q, write_calibration ord_id {[ forged := some_calibration ]} = Some t /\ read_calibration json_parse (Some t) ∅ = Ok (true, m') /\
     m' !! forged = None /\ m' !! "a.jpg"%string = Some q /\ c_focal q = Field true [Q2Qc 7]).
Proof.
  split.
  - assert (E : match write_calibration ord_id {[ quoted := some_calibration ]} with Some t => match read_calibration json_parse (Some t) ∅ with UB => True | _ => False end | None => False end) by (vm_compute; exact I).
    destruct (write_calibration ord_id {[ quoted := some_calibration ]}) as [t|] eqn:Et; [|destruct E]. exists t. split; [reflexivity|]. destruct (read_calibration json_parse (Some t) ∅) eqn:Er; [destruct E|destruct E|reflexivity|destruct E].
  - assert (E : match write_calibration ord_id {[ forged := some_calibration ]} with Some t => match read_calibration json_parse (Some t) ∅ with Ok (true, m') => bool_decide (m' !! forged = None) = true /\ match m' !! "a.jpg"%string with Some q => c_focal q = Field true [Q2Qc 7] | None => False end | _ => False end | None => False end).
    { vm_compute. split; reflexivity. }
    destruct (write_calibration ord_id {[ forged := some_calibration ]}) as [t|] eqn:Et; [|destruct E]. destruct (read_calibration json_parse (Some t) ∅) as [[[] m']| | |] eqn:Er; [|destruct E..]. destruct E as [H H0].
    apply bool_decide_eq_true_1 in H. destruct (m' !! "a.jpg"%string) as [q|] eqn:Eq; [|destruct H0]. exists t, m', q. split; [reflexivity|]. split; [exact Er|]. split; [exact H|]. split; [exact Eq|exact H0].
Qed.
Print Assumptions calibration_name_refuted.

(** The numbers of a calibration that six digits are enough for; fields that are not set hold zeros. *)
Definition short_field (f : field) : Prop := if is_set f then Forall short (value f) else Forall (fun x => x = Q2Qc 0) (value f).
Definition short_calibration (p : calibration) : Prop :=
  short_field (c_focal p) /\ short_field (c_point p) /\ short_field (c_aspect p) /\ short_field (c_skew p) /\ short_field (c_radial p) /\ short_field (c_tangential p) /\
  short_field (c_position p) /\ short_field (c_orientation p) /\ short_field (c_latitude p) /\ short_field (c_longitude p) /\ short_field (c_altitude p).
Lemma same_short f g : short_field f -> same_field f g -> g = f.
Proof.
  destruct f as [s l], g as [s' l']. unfold short_field, same_field. cbn [is_set value]. intros Hs (-> & L & H). f_equal. destruct s.
  - clear L. induction H as [|x y l l' R H IH]; [done|]. apply Forall_cons in Hs as [Hx Hs]. rewrite (IH Hs). f_equal. by apply R.
  - revert l' L H. induction l as [|x l IH]; intros [|y l'] L H; try discriminate; [done|]. apply Forall_cons in Hs as [-> Hs]. apply Forall_cons in H as [-> H]. f_equal. apply IH; [done| |done]. cbn in L. lia.
Qed.
(** What holds of it: if six digits are enough for all numbers and the calibrations can be stored, nothing is lost. *)
Theorem calibration_exact_partial parse (o : order (string * calibration)) (m m0 : gmap string calibration) :
  parser_ok parse -> map_Forall storable m -> map_Forall (fun _ => short_calibration) m -> m <> ∅ ->
  exists t m', write_calibration o m = Some t /\ read_calibration parse (Some t) m0 = Ok (true, m') /\ m' = m ∪ m0.
Proof.
  intros Hparse Hm Hs Hne. destruct (calibration_round_trip parse o m m0 Hparse Hm) as [_ K]. destruct (K Hne) as (t & m' & W & R & A & B). exists t, m'. split; [exact W|]. split; [exact R|].
  apply map_eq. intros name. destruct (m !! name) as [p|] eqn:E.
  - rewrite (lookup_union_Some_l _ _ _ _ E). destruct (A name p E) as (q & -> & S). f_equal. specialize (Hs name p E). destruct p as [w h mo f1 f2 f3 f4 f5 f6 f7 f8 f9 f10 f11], q as [w' h' mo' g1 g2 g3 g4 g5 g6 g7 g8 g9 g10 g11]. unfold same_calibration, short_calibration in *.
    cbn [c_focal c_point c_aspect c_skew c_radial c_tangential c_position c_orientation c_latitude c_longitude c_altitude c_width c_height c_model] in *.
    destruct S as (-> & -> & -> & S1 & S2 & S3 & S4 & S5 & S6 & S7 & S8 & S9 & S10 & S11). destruct Hs as (H1 & H2 & H3 & H4 & H5 & H6 & H7 & H8 & H9 & H10 & H11).
    apply same_short in S1, S2, S3, S4, S5, S6, S7, S8, S9, S10, S11; try assumption. subst. reflexivity.
  - rewrite (B name E). rewrite lookup_union_r by exact E. reflexivity.
Qed.
Print Assumptions calibration_exact_partial.
Example short_numbers : short (Q2Qc 300) /\ short (Q2Qc (641 # 2)) /\ short (Q2Qc 0).
Proof.
  split; [|split]; [exists 300%Z, 0%Z|exists 3205%Z, (-1)%Z|exists 0%Z, 0%Z]; (split; [lia|]); apply Qeq_bool_iff; vm_compute; reflexivity.
Qed.

(** * What reading gives *)
Lemma number_in_ok j : is_number j = true -> exists q, get_double j = Ok q.
Proof. unfold is_number, is_double, is_int. destruct j; try discriminate; intros _; by eexists. Qed.
Lemma number_field_ok d k : exists f, read_number (JObject d) k (no_field 1) = Ok f /\ number_field (find_member k d) f.
Proof.
  unfold read_number, number_field, number_in, member. cbn [mbind outcome_bind]. destruct (find_member k d) as [j|]; [|by eexists]. destruct (is_number j) eqn:N; [|by eexists].
  destruct (number_in_ok j N) as [q E]. rewrite E. by eexists.
Qed.
Lemma fill_at old l i : (i < length old)%nat -> fill old l !! i = Some (default (nth i old (Q2Qc 0)) (number_in (l !! i))).
Proof.
  revert l i. induction old as [|x old IH]; intros l i Hi; [cbn in Hi; lia|]. destruct l as [|j l].
  - cbn [fill]. rewrite lookup_nil. cbn [number_in default]. apply nth_lookup_Some_inv' || (rewrite nth_lookup; destruct (lookup_lt_is_Some_2 (x :: old) i Hi) as [y ->]; reflexivity).
  - cbn [fill]. destruct i as [|i]; cbn [lookup list_lookup nth].
    + unfold number_in. destruct (is_number j) eqn:N; [|done]. destruct (number_in_ok j N) as [q ->]. done.
    + apply IH. cbn in Hi. lia.
Qed.
Lemma fill_length old l : length (fill old l) = length old.
Proof. revert l. induction old as [|x old IH]; intros [|j l]; cbn [fill length]; [done..|]. by rewrite IH. Qed.
Lemma array_field_ok d k n : exists f, read_array (JObject d) k (no_field n) = Ok f /\ array_field n (find_member k d) f.
Proof.
  unfold read_array, array_field, member. cbn [mbind outcome_bind].
  assert (Z : forall P, (is_set (no_field n) = true <-> (@nil json) <> [] /\ P)). { intros P. cbn. split; [discriminate|by intros [? _]]. }
  assert (U : length (value (no_field n)) = n /\ forall i, (i < n)%nat -> value (no_field n) !! i = Some (default (Q2Qc 0) (number_in ((@nil json) !! i)))).
  { cbn [no_field value]. split; [apply replicate_length|]. intros i Hi. rewrite lookup_nil. by apply lookup_replicate_2. }
  destruct U as [U1 U2]. destruct (find_member k d) as [[| | | | |l|]|]; try (eexists; split; [reflexivity|split; [exact U1|split; [exact U2|apply Z]]]).
  eexists. split; [reflexivity|]. cbn [is_set value no_field]. rewrite replicate_length. split; [by rewrite fill_length, replicate_length|]. split.
  - intros i Hi. rewrite fill_at by (by rewrite replicate_length). f_equal. destruct (number_in (l !! i)); [done|]. cbn. apply nth_replicate || (rewrite nth_lookup, lookup_replicate_2 by done; done).
  - rewrite andb_true_iff, negb_true_iff, bool_decide_eq_false, forallb_forall. split.
    + intros [Hl Hf]. split; [exact Hl|]. intros i j Hi Hj. apply Hf. apply elem_of_list_In. apply elem_of_list_lookup. exists i. by rewrite lookup_take.
    + intros [Hl Hf]. split; [exact Hl|]. intros j Hj. apply elem_of_list_In in Hj. apply elem_of_take in Hj as (i & E & Hi). by eapply Hf.
Qed.
Lemma trunc_small y : (Qabs (this y) <= 1000000000 # 1)%Q -> exists z, to_int_trunc (Q2Qc 2 * y)%Qc = Ok z.
Proof.
  intros H. apply (trunc_ok y y H). split; [|done]. assert (E : (this y - this y == 0)%Q) by ring. rewrite E. pose proof (Qabs_nonneg (this y)) as N. change (Qabs 0) with 0%Q. set (a := Qabs (this y)) in *. clearbody a. clear - N. lra.
Qed.
Lemma small_zero : (Qabs (this (Q2Qc 0)) <= 1000000000 # 1)%Q.
Proof. apply Qle_bool_iff. vm_compute. reflexivity. Qed.
Lemma extract_says d name : usable d name -> exists p, extract_prior (JObject d) = Ok (Some (name, p)) /\ says d p.
Proof.
  intros (Hn & Ht & Hf & Hp). unfold extract_prior.
  assert (M : forall k, member (JObject d) k = Ok (find_member k d)) by reflexivity.
  rewrite (M "image_name"), Hn. cbn [mbind outcome_bind get_string]. rewrite (M "camera_intrinsics_type"). cbn [mbind outcome_bind].
  assert (exists s, (match find_member "camera_intrinsics_type" d with None => Ok "PINHOLE"%string | Some t => get_string t end) = Ok s /\ valid_model s = true /\ model_field (find_member "camera_intrinsics_type" d) s) as (s & Es & Vs & Ms).
  { destruct (find_member "camera_intrinsics_type" d) as [j|]; [|by eexists]. destruct Ht as (s & -> & V). by exists s. }
  rewrite Es. cbn [mbind outcome_bind]. rewrite Vs. cbn [check mbind outcome_bind]. unfold extract_parameters.
  cbn [no_calibration c_focal c_point c_aspect c_skew c_radial c_tangential c_position c_orientation c_latitude c_longitude c_altitude c_width c_height c_model].
  assert (exists f1, read_focal (JObject d) (no_field 1) = Ok f1 /\ match find_member "focal_length" d with Some j => exists q, get_double j = Ok q /\ f1 = Field true [q] | None => f1 = Field false [Q2Qc 0] end) as (f1 & E1 & S1).
  { unfold read_focal. rewrite M. cbn [mbind outcome_bind]. destruct (find_member "focal_length" d) as [j|]; [|by eexists]. destruct Hf as [q ->]. cbn [mbind outcome_bind]. eexists. split; [reflexivity|]. by exists q. }
  destruct (array_field_ok d "principal_point" 2) as (f2 & E2 & S2). destruct (number_field_ok d "aspect_ratio") as (f3 & E3 & S3). destruct (number_field_ok d "skew") as (f4 & E4 & S4).
  destruct (array_field_ok d "radial_distortion_coeffs" 4) as (f5 & E5 & S5). destruct (array_field_ok d "tangential_distortion_coeffs" 2) as (f6 & E6 & S6).
  destruct (array_field_ok d "position" 3) as (f7 & E7 & S7). destruct (array_field_ok d "orientation" 3) as (f8 & E8 & S8).
  destruct (number_field_ok d "latitude") as (f9 & E9 & S9). destruct (number_field_ok d "longitude") as (f10 & E10 & S10). destruct (number_field_ok d "altitude") as (f11 & E11 & S11).
  rewrite E1. cbn [mbind outcome_bind]. rewrite (M "principal_point"). cbn [mbind outcome_bind]. rewrite E2. cbn [mbind outcome_bind].
  assert (exists w h, (match find_member "principal_point" d with
             | Some (JArray _) =>
                 if is_set f2 then
                   w ← to_int_trunc (Q2Qc 2 * nth 0 (value f2) (Q2Qc 0))%Qc;
                   h ← to_int_trunc (Q2Qc 2 * nth 1 (value f2) (Q2Qc 0))%Qc;
                   Ok (w, h)
                 else Ok (0, 0)%Z
             | _ => Ok (0, 0)%Z
             end) = Ok (w, h) /\
     (if is_set f2 then to_int_trunc (Q2Qc 2 * nth 0 (value f2) (Q2Qc 0))%Qc = Ok w else w = 0%Z) /\
     (if is_set f2 then to_int_trunc (Q2Qc 2 * nth 1 (value f2) (Q2Qc 0))%Qc = Ok h else h = 0%Z)) as (w & h & W & Sw & Sh).
  { destruct S2 as (L & V & S). destruct (find_member "principal_point" d) as [[| | | | |l|]|];
      try (assert (is_set f2 = false) as -> by (destruct (is_set f2); [destruct S as [S _]; destruct (S eq_refl) as [S' _]; by destruct S'|done]); exists 0%Z, 0%Z; done).
    destruct (is_set f2); [|by exists 0%Z, 0%Z].
    assert (B : forall i, (i < 2)%nat -> exists z, to_int_trunc (Q2Qc 2 * nth i (value f2) (Q2Qc 0))%Qc = Ok z).
    { intros i Hi. rewrite nth_lookup, (V i Hi). cbn [default]. destruct (number_in (l !! i)) as [q|] eqn:N; cbn [default from_option id]; [|apply trunc_small, small_zero]. apply trunc_small. by eapply Hp. }
    destruct (B 0%nat ltac:(lia)) as [w Ew]. destruct (B 1%nat ltac:(lia)) as [h Eh]. rewrite Ew, Eh. by exists w, h. }
  rewrite W. cbn [mbind outcome_bind]. rewrite (M "camera_intrinsics_type"). cbn [mbind outcome_bind].
  assert (I : forall k i z0, (if is_set f2 then to_int_trunc (Q2Qc 2 * nth i (value f2) (Q2Qc 0))%Qc = Ok z0 else z0 = 0%Z) -> exists z, read_int (JObject d) k z0 = Ok z /\ size_field (find_member k d) f2 i z).
  { intros k i z0 H. unfold read_int, size_field. rewrite M. cbn [mbind outcome_bind]. destruct (find_member k d) as [[| |x| | | |]|]; try (by exists z0). destruct (is_int (JInt x)); by eexists. }
  destruct (I "width" 0%nat w Sw) as (w' & Ew & Sw'). destruct (I "height" 1%nat h Sh) as (h' & Eh & Sh').
  rewrite Ew. cbn [mbind outcome_bind]. rewrite Eh. cbn [mbind outcome_bind]. rewrite E3. cbn [mbind outcome_bind]. rewrite E4. cbn [mbind outcome_bind]. rewrite E5. cbn [mbind outcome_bind]. rewrite E6. cbn [mbind outcome_bind].
  rewrite E7. cbn [mbind outcome_bind]. rewrite E8. cbn [mbind outcome_bind]. rewrite E9. cbn [mbind outcome_bind]. rewrite E10. cbn [mbind outcome_bind]. rewrite E11. cbn [mbind outcome_bind].
  eexists. split; [reflexivity|]. unfold says.
  cbn [c_focal c_point c_aspect c_skew c_radial c_tangential c_position c_orientation c_latitude c_longitude c_altitude c_width c_height c_model].
  split; [exact Sw'|]. split; [exact Sh'|]. split; [|repeat (split; [assumption|]); assumption].
  unfold model_field in *. destruct (find_member "camera_intrinsics_type" d) as [j|]; [|done]. destruct Ht as (s' & -> & V'). by rewrite V'.
Qed.
Lemma entry_step j e m : entry_is j e ->
  match e with
  | Some (name, d) => exists p, read_entry m j = Ok (<[name := p]> m) /\ says d p
  | None => read_entry m j = Ok m
  end.
Proof.
  destruct 1 as [l d name Hl Hu|l Hl|l d Hl Hn]; unfold read_entry, member; cbn [mbind outcome_bind]; rewrite Hl.
  - destruct (extract_says d name Hu) as (p & E & S). exists p. rewrite E. done.
  - done.
  - unfold extract_prior, member. cbn [mbind outcome_bind]. rewrite Hn. reflexivity.
Qed.
(** The last entry for a name. *)
Definition last_entry (es : list (option (string * list (string * json)))) (name : string) (d : list (string * json)) : Prop :=
  exists es1 es2, es = es1 ++ Some (name, d) :: es2 /\ forall d', Some (name, d') ∉ es2.
Lemma entries_ok js es m : Forall2 entry_is js es -> exists m', run_steps read_entry m js = Ok m' /\
  (forall name d, last_entry es name d -> exists p, m' !! name = Some p /\ says d p) /\
  (forall name, (forall d, Some (name, d) ∉ es) -> m' !! name = m !! name).
Proof.
  intros H. revert m. induction H as [|j e js es Hj H IH]; intros m.
  - exists m. split; [reflexivity|]. split; [|done]. intros name d (es1 & es2 & E & _). by destruct es1.
  - pose proof (entry_step j e m Hj) as S. destruct e as [[n d]|].
    + destruct S as (p & S & Hs). destruct (IH (<[n := p]> m)) as (m' & R & A & B). exists m'. split; [cbn [run_steps]; rewrite S; exact R|]. split.
      * intros name d0 (es1 & es2 & E & N). destruct es1 as [|e1 es1]; cbn [app] in E; injection E as E1 E2.
        { subst n d0 es2. exists p. rewrite (B _ N). by rewrite lookup_insert. }
        { apply A. by exists es1, es2. }
      * intros name N. rewrite (B name); [|intros d0 K; apply (N d0); by right]. apply lookup_insert_ne. intros ->. apply (N d). by left.
    + destruct (IH m) as (m' & R & A & B). exists m'. split; [cbn [run_steps]; rewrite S; exact R|]. split.
      * intros name d0 (es1 & es2 & E & N). destruct es1 as [|e1 es1]; cbn [app] in E; injection E as E1 E2; [discriminate|]. apply A. by exists es1, es2.
      * intros name N. apply B. intros d0 K. apply (N d0). by right.
Qed.
(** C142.  A file with a "priors" array whose entries can be used or lack a prior or a name: every name gets what its last entry says,
    and everything else in the map stays. *)
Theorem calibration_file_says parse t t' l js es m :
  cut t = Some t' -> parse t' = Some (JObject l) -> find_member "priors" l = Some (JArray js) -> Forall2 entry_is js es ->
  exists m', read_calibration parse (Some t) m = Ok (true, m') /\
    (forall name d, last_entry es name d -> exists p, m' !! name = Some p /\ says d p) /\
    (forall name, (forall d, Some (name, d) ∉ es) -> m' !! name = m !! name).
Proof.
  intros Hc Hp Hl H. destruct (entries_ok js es m H) as (m' & R & A). exists m'. split; [|exact A].
  unfold read_calibration, extract_json. rewrite Hc, Hp. change (default JNull (Some (JObject l))) with (JObject l). assert (D : member (JObject l) "priors" = Ok (find_member "priors" l)) by reflexivity. rewrite D, Hl. cbn [mbind outcome_bind]. rewrite R. reflexivity.
Qed.
Print Assumptions calibration_file_says.

(** The first entry of the example in read_calibration.h, without its width and height. *)
Definition example_entry : list (string * json) :=
  [("image_name", JString "view_1.jpg"); ("focal_length", JInt 300); ("principal_point", JArray [JInt 240; JReal (Q2Qc (2405 # 10))]);
   ("radial_distortion_coeffs", JArray [JReal (Q2Qc (1 # 10)); JReal (Q2Qc (1 # 100))])]%string.
Definition example_file : text :=
  txt "{ " ++ quote ++ txt "priors" ++ quote ++ txt " : [ {" ++ quote ++ txt "CameraIntrinsicsPrior" ++ quote ++ txt " : { " ++
  quote ++ txt "image_name" ++ quote ++ txt " : " ++ quote ++ txt "view_1.jpg" ++ quote ++ txt ", " ++
  quote ++ txt "focal_length" ++ quote ++ txt " : 300, " ++ quote ++ txt "principal_point" ++ quote ++ txt " : [240, 240.5], " ++
  quote ++ txt "radial_distortion_coeffs" ++ quote ++ txt " : [0.1, 0.01] }}, {} ] } and more".
Example example_usable : exists t' l js, cut example_file = Some t' /\ json_parse t' = Some (JObject l) /\ find_member "priors" l = Some (JArray js) /\
  Forall2 entry_is js [Some ("view_1.jpg"%string, example_entry); None].
Proof.
  eexists _, _, _. split; [vm_compute; reflexivity|]. split; [vm_compute; reflexivity|]. split; [vm_compute; reflexivity|]. constructor; [|constructor; [|constructor]].
  - apply ei_used; [vm_compute; reflexivity|]. split; [vm_compute; reflexivity|]. split; [exact I|]. split; [by eexists|]. cbn.
    intros [|[|i]] q Hi E; [| |lia]; cbn in E; injection E as <-; apply Qle_bool_iff; vm_compute; reflexivity.
  - by apply ei_no_prior.
Qed.
Example example_read : match read_calibration json_parse (Some example_file) ∅ with
  | Ok (true, m) => match m !! "view_1.jpg"%string with
      | Some p => c_width p = 480%Z /\ c_height p = 481%Z /\ c_model p = "PINHOLE"%string /\ c_focal p = Field true [Q2Qc 300] /\ value (c_radial p) = [Q2Qc (1 # 10); Q2Qc (1 # 100); Q2Qc 0; Q2Qc 0] | None => False end
  | _ => False end.
Proof. vm_compute. repeat split; reflexivity. Qed.

(** * Files that are no calibration files *)
Definition bad_focal_file : text :=
  txt "{" ++ quote ++ txt "priors" ++ quote ++ txt ":[{" ++ quote ++ txt "CameraIntrinsicsPrior" ++ quote ++ txt ":{" ++ quote ++ txt "image_name" ++ quote ++ txt ":" ++ quote ++ txt "a" ++ quote ++ txt "," ++
  quote ++ txt "focal_length" ++ quote ++ txt ":" ++ quote ++ txt "wide" ++ quote ++ txt "}}]}".
Definition bad_type_file : text :=
  txt "{" ++ quote ++ txt "priors" ++ quote ++ txt ":[{" ++ quote ++ txt "CameraIntrinsicsPrior" ++ quote ++ txt ":{" ++ quote ++ txt "image_name" ++ quote ++ txt ":" ++ quote ++ txt "a" ++ quote ++ txt "," ++
  quote ++ txt "camera_intrinsics_type" ++ quote ++ txt ":" ++ quote ++ txt "LENSLESS" ++ quote ++ txt "}}]}".
(** C143, refuted: a file whose text is no JSON, or no JSON object, makes the document be asked for a member that it cannot have,
    whatever parser there is; a focal length or a name of the wrong type does the same, and an unknown camera type ends the program. *)
Theorem calibration_bad_file_refuted :
  (forall parse t t' m, cut t = Some t' -> parse t' = None -> read_calibration parse (Some t) m = UB) /\
  (forall parse t t' js m, cut t = Some t' -> parse t' = Some (JArray js) -> read_calibration parse (Some t) m = UB) /\
  (exists t m, read_calibration json_parse (Some t) m = UB /\ exists t', cut t = Some t' /\ json_parse t' = Some (JObject [("priors", JArray [JObject [("CameraIntrinsicsPrior", JObject [("image_name", JString "a"); ("focal_length", JString "wide")])]])]%string)) /\
  (exists t m, read_calibration json_parse (Some t) m = CheckFail /\ exists t', cut t = Some t' /\ json_parse t' = Some (JObject [("priors", JArray [JObject [("CameraIntrinsicsPrior", JObject [("image_name", JString "a"); ("camera_intrinsics_type", JString "LENSLESS")])]])]%string)).
Proof.
  split; [|split; [|split]].
  - intros parse t t' m Hc Hp. unfold read_calibration, extract_json. rewrite Hc, Hp. reflexivity.
  - intros parse t t' js m Hc Hp. unfold read_calibration, extract_json. rewrite Hc, Hp. reflexivity.
  - exists bad_focal_file, ∅. split; [vm_compute; reflexivity|]. exists bad_focal_file. split; vm_compute; reflexivity.
  - exists bad_type_file, ∅. split; [vm_compute; reflexivity|]. exists bad_type_file. split; vm_compute; reflexivity.
Qed.
Print Assumptions calibration_bad_file_refuted.
(** What holds of it: a file that is not there, has no closing brace, or is an object without a "priors" array is answered with false, and the map
    is left alone; what comes after the last closing brace does not matter. *)
Theorem calibration_bad_file_partial parse m :
  read_calibration parse None m = Ok (false, m) /\
  (forall t, "}"%char ∉ t -> read_calibration parse (Some t) m = Ok (false, m)) /\
  (forall t l, "}"%char ∉ t -> forall s, parse (s ++ txt "}") = Some (JObject l) -> (forall js, find_member "priors" l <> Some (JArray js)) -> read_calibration parse (Some (s ++ txt "}" ++ t)) m = Ok (false, m)) /\
  (forall s t, "}"%char ∉ t -> read_calibration parse (Some (s ++ txt "}" ++ t)) m = read_calibration parse (Some (s ++ txt "}")) m).
Proof.
  assert (F : forall t, "}"%char ∉ t -> Forall (fun c => c <> "}"%char) t). { intros t H. apply Forall_forall. intros c Hc ->. by apply H. }
  assert (C : forall s t, "}"%char ∉ t -> cut (s ++ txt "}" ++ t) = Some (s ++ txt "}")). { intros s t H. apply (cut_last s t). by apply F. }
  split; [reflexivity|]. split; [|split].
  - intros t H. unfold read_calibration. assert (E : cut t = None); [|by rewrite E]. apply F in H. induction H as [|c t Hc H IH]; [done|]. cbn [cut]. rewrite IH. by rewrite decide_False.
  - intros t l H s Hp Hl. unfold read_calibration, extract_json. rewrite (C s t H), Hp. change (default JNull (Some (JObject l))) with (JObject l). assert (D : member (JObject l) "priors" = Ok (find_member "priors" l)) by reflexivity. rewrite D. cbn [mbind outcome_bind].
    destruct (find_member "priors" l) as [[| | | | |js|]|]; try reflexivity. by destruct (Hl js).
  - intros s t H. unfold read_calibration. rewrite (C s t H). rewrite <- (app_nil_r (s ++ txt "}")) at 2. rewrite <- app_assoc, (C s [] (not_elem_of_nil _)). reflexivity.
Qed.
Print Assumptions calibration_bad_file_partial.
Example no_priors_file : json_parse (txt "{}" ) = Some (JObject []) /\ find_member "priors" [] = None.
Proof. vm_compute. split; reflexivity. Qed.
