(** The text that WriteCalibration writes is the text of a JSON document, and reading that document gives the calibrations back. *)
From stdpp Require Import gmap strings.
From Coq Require Import Ascii QArith Qabs Qcanon Lqa.
From Verif Require Import Base Calibration_Model Calibration_Spec Calibration_Numbers.

(** * The document *)
Definition json_number (x : Qc) : json := json_of (decimal_of x).
Definition number_member (k : string) (f : field) : list (string * json) :=
  if is_set f then [(k, json_number (nth 0 (value f) (Q2Qc 0)))] else [].
Definition array_member (k : string) (f : field) : list (string * json) :=
  if is_set f then [(k, JArray (json_number <$> value f))] else [].
Definition more_members (p : calibration) : list (string * json) :=
  number_member "focal_length" (c_focal p) ++ array_member "principal_point" (c_point p) ++
  number_member "aspect_ratio" (c_aspect p) ++ number_member "skew" (c_skew p) ++
  array_member "radial_distortion_coeffs" (c_radial p) ++ array_member "tangential_distortion_coeffs" (c_tangential p) ++
  array_member "position" (c_position p) ++ array_member "orientation" (c_orientation p) ++
  number_member "latitude" (c_latitude p) ++ number_member "longitude" (c_longitude p) ++ number_member "altitude" (c_altitude p).
Definition prior_members (name : string) (p : calibration) : list (string * json) :=
  [("image_name"%string, JString name); ("width"%string, JInt (c_width p)); ("height"%string, JInt (c_height p));
   ("camera_intrinsics_type"%string, JString (c_model p))] ++ more_members p.
Definition prior_document (np : string * calibration) : json :=
  JObject [("CameraIntrinsicsPrior"%string, JObject (prior_members np.1 np.2))].
Definition document (l : list (string * calibration)) : json := JObject [("priors"%string, JArray (prior_document <$> l))].

(** * The text *)
Lemma plain_ok s : forallb plain_char (txt s) = true -> plain s.
Proof. intros H. unfold plain. apply Forall_forall. intros c Hc. eapply forallb_forall; [exact H|]. by apply elem_of_list_In. Qed.
Lemma blanks_ok t : forallb blank t = true -> blanks t.
Proof. intros H. apply Forall_forall. intros c Hc. eapply forallb_forall; [exact H|]. by apply elem_of_list_In. Qed.
Inductive tail_text : list (string * json) -> text -> Prop :=
| tt_nil : tail_text [] []
| tt_cons k j v l t : plain k -> value_text j v -> tail_text l t -> tail_text ((k, j) :: l) (txt "," ++ nl ++ key_text k ++ v ++ t).
Lemma tail_app l1 t1 l2 t2 : tail_text l1 t1 -> tail_text l2 t2 -> tail_text (l1 ++ l2) (t1 ++ t2).
Proof.
  induction 1 as [|k j v l t Hk Hv H IH]; intros H2; [exact H2|]. specialize (IH H2). cbn [app]. rewrite <- !app_assoc. by constructor.
Qed.
Lemma tail_members k j v l t : plain k -> value_text j v -> tail_text l t -> members_text ((k, j) :: l) (nl ++ key_text k ++ v ++ t ++ nl).
Proof.
  intros Hk Hv H. revert k j v Hk Hv. induction H as [|k' j' v' l t Hk' Hv' H IH]; intros k j v Hk Hv.
  - unfold key_text. rewrite <- !app_assoc. change (txt " : ") with (txt " " ++ txt ":" ++ txt " "). rewrite <- !app_assoc.
    apply (mt_one nl k (txt " ") (txt " ") j v nl); auto; by apply blanks_ok.
  - unfold key_text at 1. rewrite <- !app_assoc. change (txt " : ") with (txt " " ++ txt ":" ++ txt " ") at 1. rewrite <- !app_assoc.
    apply (mt_more nl k (txt " ") (txt " ") j v [] ((k', j') :: l)); auto; try by apply blanks_ok.
Qed.
Lemma number_text x : value_text (json_number x) (print x).
Proof. destruct (decimal_ok x) as (y & H & _). by apply vt_number. Qed.
Lemma int_text z : value_text (JInt z) (print_int z).
Proof. destruct (int_ok z) as [H <-]. by apply vt_number. Qed.
Lemma numbers_text a l : blanks a -> l <> [] -> items_text (json_number <$> l) (a ++ comma_list (print <$> l)).
Proof.
  revert a. induction l as [|x l IH]; intros a Ha Hl; [done|]. destruct l as [|y l].
  - cbn [fmap list_fmap comma_list]. rewrite <- (app_nil_r (print x)). apply it_one; [done|apply number_text|constructor].
  - change (comma_list (print <$> x :: y :: l)) with (print x ++ txt ", " ++ comma_list (print <$> y :: l)). change (txt ", ") with (txt "," ++ txt " "). rewrite <- !app_assoc.
    change (json_number <$> x :: y :: l) with (json_number x :: (json_number <$> y :: l)).
    apply (it_more a _ (print x) [] _ (txt " " ++ comma_list (print <$> y :: l))); [done|apply number_text|constructor|]. apply IH; [by apply blanks_ok|done].
Qed.
Lemma number_tail k f : plain k -> tail_text (number_member k f) (write_number k f).
Proof.
  intros Hk. unfold number_member, write_number. destruct (is_set f); [|constructor]. rewrite <- (app_nil_r (print _)). constructor; [done|apply number_text|constructor].
Qed.
Lemma array_tail k f : plain k -> value f <> [] -> tail_text (array_member k f) (write_array k f).
Proof.
  intros Hk Hf. unfold array_member, write_array. destruct (is_set f); [|constructor]. rewrite <- (app_nil_r (txt "[" ++ _ ++ _)). constructor; [done| |constructor].
  apply vt_array. apply (numbers_text [] (value f)); [constructor|done].
Qed.
Lemma string_text s : plain s -> value_text (JString s) (quote ++ txt s ++ quote).
Proof. apply vt_string. Qed.
Lemma model_plain s : valid_model s = true -> plain s.
Proof.
  unfold valid_model. intros H. repeat (apply orb_prop in H; destruct H as [H|H]); apply bool_decide_eq_true in H; subst s; apply plain_ok; vm_compute; reflexivity.
Qed.
Lemma nonempty_value f n : length (value f) = S n -> value f <> [].
Proof. intros H E. rewrite E in H. discriminate. Qed.
Lemma more_text p name : storable name p ->
  tail_text (more_members p)
    (write_number "focal_length" (c_focal p) ++ write_array "principal_point" (c_point p) ++ write_number "aspect_ratio" (c_aspect p) ++
     write_number "skew" (c_skew p) ++ write_array "radial_distortion_coeffs" (c_radial p) ++ write_array "tangential_distortion_coeffs" (c_tangential p) ++
     write_array "position" (c_position p) ++ write_array "orientation" (c_orientation p) ++ write_number "latitude" (c_latitude p) ++
     write_number "longitude" (c_longitude p) ++ write_number "altitude" (c_altitude p)).
Proof.
  intros (_ & _ & _ & _ & L1 & L2 & L3 & L4 & L5 & L6 & L7 & L8 & L9 & L10 & L11 & _). unfold more_members.
  repeat apply tail_app; (apply number_tail || apply array_tail); try (apply plain_ok; vm_compute; reflexivity); eauto using nonempty_value.
Qed.
Lemma prior_text name p : storable name p -> value_text (prior_document (name, p)) (write_prior name p).
Proof.
  intros H. pose proof (more_text p name H) as M. destruct H as (Hn & Hm & _). unfold prior_document, write_prior. cbn [fst snd].
  match type of M with tail_text _ ?t => set (rest := t) in * end.
  assert (B : members_text (prior_members name p)
     (nl ++ key_text "image_name" ++ (quote ++ txt name ++ quote) ++ (txt "," ++ nl ++ key_text "width" ++ print_int (c_width p) ++ txt "," ++ nl ++ key_text "height" ++ print_int (c_height p) ++
      txt "," ++ nl ++ key_text "camera_intrinsics_type" ++ (quote ++ txt (c_model p) ++ quote) ++ rest) ++ nl)).
  { apply tail_members; [by apply plain_ok|by apply vt_string|]. constructor; [by apply plain_ok|apply int_text|]. constructor; [by apply plain_ok|apply int_text|].
    constructor; [by apply plain_ok|by apply vt_string, model_plain|exact M]. }
  pose proof (mt_one [] "CameraIntrinsicsPrior" (txt " ") (txt " ") _ _ [] ltac:(constructor) ltac:(by apply plain_ok) ltac:(by apply blanks_ok) ltac:(by apply blanks_ok) (vt_object _ _ B) ltac:(constructor)) as D.
  apply vt_object in D. eapply eq_ind; [exact D|]. unfold rest. unfold key_text. change (txt " : ") with (txt " " ++ txt ":" ++ txt " "). change (txt "}}") with (txt "}" ++ txt "}").
  rewrite <- !app_assoc, ?app_nil_l. cbn [app]. reflexivity.
Qed.
Lemma rest_text l : write_rest l = mjoin ((fun np : string * calibration => txt "," ++ nl ++ write_prior np.1 np.2) <$> l).
Proof.
  unfold write_rest. assert (G : forall a, foldl (fun t (np : string * calibration) => t ++ txt "," ++ nl ++ write_prior np.1 np.2) a l = a ++ mjoin ((fun np : string * calibration => txt "," ++ nl ++ write_prior np.1 np.2) <$> l)).
  { induction l as [|np l IH]; intros a; cbn [foldl]; [cbn; by rewrite app_nil_r|]. rewrite IH. cbn [fmap list_fmap mjoin list_join]. by rewrite <- !app_assoc. }
  apply (G []).
Qed.
Lemma priors_text np l : storable np.1 np.2 -> Forall (fun np => storable np.1 np.2) l ->
  items_text (prior_document <$> np :: l) (nl ++ write_prior np.1 np.2 ++ write_rest l ++ nl).
Proof.
  rewrite rest_text. revert np. induction l as [|np' l IH]; intros [name p] H Hl.
  - apply it_one; [by apply blanks_ok|by apply prior_text|by apply blanks_ok].
  - apply Forall_cons in Hl as [H' Hl]. specialize (IH np' H' Hl). cbn [fmap list_fmap mjoin list_join] in *. cbn [fst snd] in *. rewrite <- !app_assoc.
    apply (it_more nl _ (write_prior name p) [] _ _); [by apply blanks_ok|by apply prior_text|constructor|]. exact IH.
Qed.
Lemma cut_last t b : Forall (fun c => c <> "}"%char) b -> cut (t ++ "}"%char :: b) = Some (t ++ ["}"%char]).
Proof.
  intros H. assert (N : cut b = None). { induction b as [|c b IH]; [done|]. apply Forall_cons in H as [Hc Hb]. cbn [cut]. rewrite (IH Hb). by rewrite decide_False. }
  induction t as [|c t IH]; cbn [app cut]; [by rewrite N, decide_True|by rewrite IH].
Qed.
Lemma file_text (o : order (string * calibration)) (m : gmap string calibration) np l t : o (map_to_list m) = np :: l -> Forall (fun np => storable np.1 np.2) (np :: l) -> write_calibration o m = Some t ->
  exists t', cut t = Some t' /\ value_text (document (np :: l)) t'.
Proof.
  intros E H. apply Forall_cons in H as [Hp Hl]. unfold write_calibration. rewrite E. intros W. apply (inj Some) in W. subst t.
  set (head := txt "{" ++ nl ++ quote ++ txt "priors" ++ quote ++ txt " : [" ++ nl ++ write_prior np.1 np.2 ++ write_rest l ++ nl ++ txt "]" ++ nl).
  exists (head ++ ["}"%char]). split.
  - transitivity (cut (head ++ "}"%char :: nl)); [|apply cut_last; repeat constructor; discriminate]. f_equal. unfold head. rewrite <- !app_assoc. cbn [app]. reflexivity.
  - pose proof (mt_one nl "priors" (txt " ") (txt " ") _ _ nl ltac:(by apply blanks_ok) ltac:(by apply plain_ok) ltac:(by apply blanks_ok) ltac:(by apply blanks_ok) (vt_array _ _ (priors_text np l Hp Hl)) ltac:(by apply blanks_ok)) as D.
    apply vt_object in D. eapply eq_ind; [exact D|]. unfold head. change (txt " : [") with (txt " " ++ txt ":" ++ txt " " ++ txt "["). rewrite <- !app_assoc. reflexivity.
Qed.

(** * Reading the document *)
Lemma find_app k l1 l2 : find_member k (l1 ++ l2) = match find_member k l1 with Some j => Some j | None => find_member k l2 end.
Proof. induction l1 as [|[k' j] l1 IH]; cbn [app find_member]; [done|]. destruct (decide (k' = k)); [done|apply IH]. Qed.
Lemma find_number k k' f : find_member k (number_member k' f) = if decide (k' = k) then (if is_set f then Some (json_number (nth 0 (value f) (Q2Qc 0))) else None) else None.
Proof. unfold number_member. destruct (is_set f); cbn [find_member]; destruct (decide (k' = k)); done. Qed.
Lemma find_array k k' f : find_member k (array_member k' f) = if decide (k' = k) then (if is_set f then Some (JArray (json_number <$> value f)) else None) else None.
Proof. unfold array_member. destruct (is_set f); cbn [find_member]; destruct (decide (k' = k)); done. Qed.
Ltac find_it := unfold prior_members, more_members; cbn [app find_member];
  rewrite ?find_app, ?find_number, ?find_array;
  repeat (first [rewrite decide_True by reflexivity | rewrite decide_False by discriminate]);
  try reflexivity; try (match goal with |- context [is_set ?f] => destruct (is_set f); reflexivity end).
Lemma json_number_ok x : is_number (json_number x) = true /\ exists y, get_double (json_number x) = Ok y /\ read_for x y.
Proof. destruct (decimal_ok x) as (y & _ & H1 & H2 & H3). split; [exact H1|]. by exists y. Qed.
Lemma unset_same f n : is_set f = false -> length (value f) = n -> same_field f (no_field n).
Proof. intros E L. unfold same_field, no_field. cbn [is_set value]. rewrite E, replicate_length. split; [done|]. split; [done|]. by apply Forall_replicate. Qed.
Lemma read_number_ok l k f : length (value f) = 1%nat ->
  find_member k l = (if is_set f then Some (json_number (nth 0 (value f) (Q2Qc 0))) else None) ->
  exists g, read_number (JObject l) k (no_field 1) = Ok g /\ same_field f g.
Proof.
  intros L E. unfold read_number, member. cbn [mbind outcome_bind]. rewrite E. destruct (is_set f) eqn:S; [|by eexists; split; [reflexivity|apply unset_same]].
  destruct f as [s [|x [|]]]; try discriminate. cbn [value nth is_set] in *. destruct (json_number_ok x) as (N & y & D & R). rewrite N, D. cbn [mbind outcome_bind].
  eexists. split; [reflexivity|]. unfold same_field. cbn [is_set value]. rewrite S. split; [done|]. split; [done|]. constructor; [exact R|constructor].
Qed.
Lemma read_focal_ok l f : length (value f) = 1%nat ->
  find_member "focal_length" l = (if is_set f then Some (json_number (nth 0 (value f) (Q2Qc 0))) else None) ->
  exists g, read_focal (JObject l) (no_field 1) = Ok g /\ same_field f g.
Proof.
  intros L E. unfold read_focal, member. cbn [mbind outcome_bind]. rewrite E. destruct (is_set f) eqn:S; [|by eexists; split; [reflexivity|apply unset_same]].
  destruct f as [s [|x [|]]]; try discriminate. cbn [value nth is_set] in *. destruct (json_number_ok x) as (N & y & D & R). rewrite D. cbn [mbind outcome_bind].
  eexists. split; [reflexivity|]. unfold same_field. cbn [is_set value]. rewrite S. split; [done|]. split; [done|]. constructor; [exact R|constructor].
Qed.
Lemma fill_ok old l : length old = length l -> Forall2 read_for l (fill old (json_number <$> l)) /\ length (fill old (json_number <$> l)) = length l.
Proof.
  revert old. induction l as [|x l IH]; intros [|o old] L; try discriminate; [by split; [constructor|]|]. cbn [fmap list_fmap fill length] in *. destruct (json_number_ok x) as (N & y & D & R). rewrite N, D.
  destruct (IH old ltac:(lia)) as [I1 I2]. split; [by constructor|by rewrite I2].
Qed.
Lemma numbers_all l : forallb is_number (json_number <$> l) = true.
Proof. induction l as [|x l IH]; [done|]. cbn [fmap list_fmap forallb]. destruct (json_number_ok x) as [-> _]. exact IH. Qed.
Lemma read_array_ok l k f n : length (value f) = S n ->
  find_member k l = (if is_set f then Some (JArray (json_number <$> value f)) else None) ->
  exists g, read_array (JObject l) k (no_field (S n)) = Ok g /\ same_field f g.
Proof.
  intros L E. unfold read_array, member. cbn [mbind outcome_bind]. rewrite E. destruct (is_set f) eqn:S; [|by eexists; split; [reflexivity|apply unset_same]].
  eexists. split; [reflexivity|]. unfold same_field. cbn [is_set value]. rewrite S. unfold no_field. cbn [value]. rewrite replicate_length, take_ge by (rewrite fmap_length; lia).
  destruct (fill_ok (replicate (Datatypes.S n) (Q2Qc 0)) (value f)) as [F1 F2]; [by rewrite replicate_length|]. rewrite numbers_all, bool_decide_eq_false_2; [done|].
  destruct (value f); [discriminate|done].
Qed.
Lemma trunc_ok x y : (Qabs (this x) <= 1000000000 # 1)%Q -> read_for x y -> exists z, to_int_trunc (Q2Qc 2 * y)%Qc = Ok z.
Proof.
  intros Hx [H _]. unfold to_int_trunc. set (q := (Q2Qc 2 * y)%Qc).
  assert (Hq : (Qabs (this q) <= 2100000000 # 1)%Q).
  { assert (Eq : (this q == 2 * this y)%Q) by (unfold q; unfold Qcmult; cbn [this Q2Qc]; rewrite !Qred_correct; reflexivity). rewrite Eq.
    apply Qabs_Qle_condition. apply Qabs_Qle_condition in Hx. apply Qabs_Qle_condition in H.
    assert ((Qabs (this x) <= 1000000000 # 1)%Q) by (apply Qabs_Qle_condition; exact Hx). set (a := Qabs (this x)) in *. split; lra. }
  rewrite decide_True; [by eexists|]. destruct (this q) as [a b]. cbn [Qnum Qden]. unfold Qabs, Qle in Hq. cbn [Qnum Qden] in Hq.
  assert (Z.abs (Z.quot a (Zpos b)) <= 2100000000)%Z.
  { rewrite Z.quot_abs_l || idtac. pose proof (Z.quot_abs a (Zpos b) ltac:(lia)) as Q. rewrite (Z.abs_eq (Zpos b)) in Q by lia. rewrite <- Q. rewrite Z.quot_div_nonneg by lia. apply Z.div_le_upper_bound; lia. }
  lia.
Qed.

(** The whole prior. *)
Lemma extract_ok name p : storable name p -> exists q, extract_prior (JObject (prior_members name p)) = Ok (Some (name, q)) /\ same_calibration p q.
Proof.
  intros (_ & Hm & Hw & Hh & L1 & L2 & L3 & L4 & L5 & L6 & L7 & L8 & L9 & L10 & L11 & Hp).
  unfold extract_prior. set (d := prior_members name p).
  assert (F1 : find_member "image_name" d = Some (JString name)) by (unfold d; find_it).
  assert (F2 : find_member "camera_intrinsics_type" d = Some (JString (c_model p))) by (unfold d; find_it).
  assert (F3 : find_member "width" d = Some (JInt (c_width p))) by (unfold d; find_it).
  assert (F4 : find_member "height" d = Some (JInt (c_height p))) by (unfold d; find_it).
  assert (F5 : find_member "principal_point" d = if is_set (c_point p) then Some (JArray (json_number <$> value (c_point p))) else None) by (unfold d; find_it).
  destruct (read_focal_ok d (c_focal p) L1 ltac:(unfold d; find_it)) as (g1 & G1 & S1).
  destruct (read_array_ok d "principal_point" (c_point p) 1 L2 F5) as (g2 & G2 & S2).
  destruct (read_number_ok d "aspect_ratio" (c_aspect p) L3 ltac:(unfold d; find_it)) as (g3 & G3 & S3).
  destruct (read_number_ok d "skew" (c_skew p) L4 ltac:(unfold d; find_it)) as (g4 & G4 & S4).
  destruct (read_array_ok d "radial_distortion_coeffs" (c_radial p) 3 L5 ltac:(unfold d; find_it)) as (g5 & G5 & S5).
  destruct (read_array_ok d "tangential_distortion_coeffs" (c_tangential p) 1 L6 ltac:(unfold d; find_it)) as (g6 & G6 & S6).
  destruct (read_array_ok d "position" (c_position p) 2 L7 ltac:(unfold d; find_it)) as (g7 & G7 & S7).
  destruct (read_array_ok d "orientation" (c_orientation p) 2 L8 ltac:(unfold d; find_it)) as (g8 & G8 & S8).
  destruct (read_number_ok d "latitude" (c_latitude p) L9 ltac:(unfold d; find_it)) as (g9 & G9 & S9).
  destruct (read_number_ok d "longitude" (c_longitude p) L10 ltac:(unfold d; find_it)) as (g10 & G10 & S10).
  destruct (read_number_ok d "altitude" (c_altitude p) L11 ltac:(unfold d; find_it)) as (g11 & G11 & S11).
  assert (W : exists w h, (match (if is_set (c_point p) then Some (JArray (json_number <$> value (c_point p))) else None) with
             | Some (JArray _) =>
                 if is_set g2 then
                   w ← to_int_trunc (Q2Qc 2 * nth 0 (value g2) (Q2Qc 0))%Qc;
                   h ← to_int_trunc (Q2Qc 2 * nth 1 (value g2) (Q2Qc 0))%Qc;
                   Ok (w, h)
                 else Ok (0, 0)%Z
             | _ => Ok (0, 0)%Z
             end) = Ok (w, h)).
  { destruct S2 as (E & _ & F). rewrite E. destruct (is_set (c_point p)); [|by exists 0%Z, 0%Z]. destruct (value (c_point p)) as [|x [|y [|]]]; try discriminate.
    apply Forall2_cons_inv_l in F as (x' & l' & Rx & F & ->). apply Forall2_cons_inv_l in F as (y' & l'' & Ry & F & ->). cbn [nth].
    apply Forall_cons in Hp as [Px Hp]. apply Forall_cons in Hp as [Py _]. destruct (trunc_ok _ _ Px Rx) as [w ->]. destruct (trunc_ok _ _ Py Ry) as [h ->]. by exists w, h. }
  destruct W as (w & h & W).
  assert (I : forall k z z0, find_member k d = Some (JInt z) -> int32 z -> read_int (JObject d) k z0 = Ok z).
  { intros k z z0 E Hz. unfold read_int, member. cbn [mbind outcome_bind]. rewrite E. unfold is_int. by rewrite bool_decide_eq_true_2. }
  eexists. split.
  - assert (M1 : member (JObject d) "image_name" = Ok (Some (JString name))) by (rewrite <- F1; reflexivity).
    assert (M2 : member (JObject d) "camera_intrinsics_type" = Ok (Some (JString (c_model p)))) by (rewrite <- F2; reflexivity).
    pose proof (f_equal Ok F5) as M5. change (Ok (find_member "principal_point" d)) with (member (JObject d) "principal_point") in M5.
    rewrite M1. cbn [get_string mbind outcome_bind]. rewrite M2. cbn [get_string mbind outcome_bind]. rewrite Hm. cbn [check mbind outcome_bind].
    unfold extract_parameters. cbn [no_calibration c_focal c_point c_aspect c_skew c_radial c_tangential c_position c_orientation c_latitude c_longitude c_altitude c_width c_height c_model].
    rewrite G1. cbn [mbind outcome_bind]. rewrite M5. cbn [mbind outcome_bind]. rewrite G2. cbn [mbind outcome_bind]. rewrite W. cbn [mbind outcome_bind].
    rewrite M2. cbn [mbind outcome_bind]. rewrite (I _ _ _ F3 Hw). cbn [mbind outcome_bind]. rewrite (I _ _ _ F4 Hh). cbn [mbind outcome_bind].
    rewrite G3. cbn [mbind outcome_bind]. rewrite G4. cbn [mbind outcome_bind]. rewrite G5. cbn [mbind outcome_bind]. rewrite G6. cbn [mbind outcome_bind]. rewrite G7. cbn [mbind outcome_bind]. rewrite G8. cbn [mbind outcome_bind].
    rewrite G9. cbn [mbind outcome_bind]. rewrite G10. cbn [mbind outcome_bind]. rewrite G11. cbn [mbind outcome_bind]. rewrite Hm. reflexivity.
  - unfold same_calibration. cbn [c_focal c_point c_aspect c_skew c_radial c_tangential c_position c_orientation c_latitude c_longitude c_altitude c_width c_height c_model].
    repeat (split; [first [reflexivity|assumption]|]). assumption.
Qed.
Lemma read_entry_ok name p m : storable name p -> exists q, read_entry m (prior_document (name, p)) = Ok (<[name := q]> m) /\ same_calibration p q.
Proof.
  intros H. destruct (extract_ok name p H) as (q & E & S). exists q. split; [|exact S]. unfold read_entry, prior_document, member. cbn [fst snd mbind outcome_bind find_member]. rewrite decide_True by reflexivity. rewrite E. reflexivity.
Qed.
Lemma read_entries_ok l m : NoDup (fst <$> l) -> Forall (fun np => storable np.1 np.2) l ->
  exists m', run_steps read_entry m (prior_document <$> l) = Ok m' /\
    (forall name p, (name, p) ∈ l -> exists q, m' !! name = Some q /\ same_calibration p q) /\
    (forall name, name ∉ fst <$> l -> m' !! name = m !! name).
Proof.
  revert m. induction l as [|[name p] l IH]; intros m Hd H.
  - exists m. split; [reflexivity|]. split; [|done]. intros n p Hnp. by apply elem_of_nil in Hnp.
  - apply Forall_cons in H as [H Hl]. apply NoDup_cons in Hd as [Hn Hd]. cbn [fst snd] in *. destruct (read_entry_ok name p m H) as (q & E & S). destruct (IH (<[name := q]> m) Hd Hl) as (m' & R & A & B).
    exists m'. split; [|split].
    + cbn [fmap list_fmap]. cbn [run_steps]. rewrite E. exact R.
    + intros n p' Hnp. apply elem_of_cons in Hnp as [[= -> ->]|Hnp]; [|by apply A]. exists q. split; [|exact S]. rewrite (B _ Hn). by rewrite lookup_insert.
    + intros n Hnn. cbn [fmap list_fmap fst] in Hnn. apply not_elem_of_cons in Hnn as [N1 N2]. rewrite (B _ N2). by rewrite lookup_insert_ne.
Qed.
