(** What feature extraction and the selection of image pairs should do, without reference to how the code does it. *)
From stdpp Require Import gmap strings.
From Coq Require Import Reals QArith_base Qcanon.
From Verif Require Import Base Priors_Model FeatureDb_Model FeatureExtraction_Model.

Section images.
Context {K De M : Type} (ou : outside K De) (opts : fe_options) (masks : gmap string string).
Notation features := (list K * list De)%type.
Notation database := (db prior features M).

(** A keypoint is in the white part of the mask of the image; without a mask every keypoint is. *)
Definition in_white (path : string) (k : K) : Prop :=
  match masks !! path with
  | Some mask => mask <> "" -> (Q2Qc (1 # 2) <= ou_mask ou mask k)%Qc
  | None => True
  end.
Global Instance in_white_dec path k : Decision (in_white path k).
Proof. unfold in_white. destruct (masks !! path); apply _. Defined.

(** The features of an image: of the detected ones those in the white part, and no more than the limit. *)
Definition image_features (path : string) : features :=
  let '(ok, f) := ou_detect ou path in
  if ok then
    let l := filter (fun kd : K * De => in_white path kd.1) (zip f.1 f.2) in
    let l := if decide (0 <= fo_max_features opts)%Z then take (Z.to_nat (fo_max_features opts)) l else l in
    (fst <$> l, snd <$> l)
  else f.

(** The prior of an image, from the one in the database and the EXIF data; none if only calibrated images are wanted and the
    focal length is not known. *)
Definition image_prior (path : string) (given : option prior) : option prior :=
  let x := ou_exif ou path in
  let p := default no_prior given in
  let found (f : R) := Prior (ex_width x) (ex_height x) (p_model p) (Some f) (Some (IZR (ex_width x) / 2, IZR (ex_height x) / 2)%R)
                         (p_aspect p) (p_skew p) (p_radial p) (p_tangential p) in
  match p_focal p, ex_focal x with
  | Some _, _ => Some p
  | None, Some f => Some (found f)
  | None, None => if fo_only_calibrated opts then None else Some (found (6 / 5 * IZR (Z.max (ex_width x) (ex_height x)))%R)
  end.

(** The features of an image when all tasks have returned: stored ones stay. *)
Definition features_then (d : database) (path name : string) : option features :=
  match db_features d !! name, image_prior path (db_priors d !! name) with
  | Some f, _ => Some f
  | None, None => None
  | None, Some _ => if decide (length (image_features path).2 = 0%nat) then None else Some (image_features path)
  end.
Definition prior_then (d : database) (path name : string) : option prior :=
  match image_prior path (db_priors d !! name) with Some p => Some p | None => db_priors d !! name end.
(** The image goes to the matcher. *)
Definition goes_on (d : database) (path name : string) : bool :=
  match image_prior path (db_priors d !! name), features_then d path name with Some _, Some _ => true | _, _ => false end.

(** The images whose files exist. *)
Definition images (paths : list string) : list string := filter (fun p => ou_exists ou p = true) paths.

(** What a caller has to provide: files with different names; a detector that gives a descriptor for every keypoint; masks
    of the sizes of their images; stored features with descriptors when they are used for training. *)
Record provided (paths : list string) (d : database) := Provided {
  pv_names : forall p, p ∈ images paths -> is_Some (ou_name ou p);
  pv_distinct : forall i j p q, images paths !! i = Some p -> images paths !! j = Some q -> ou_name ou p = ou_name ou q -> i = j;
  pv_detect : forall p, p ∈ images paths ->
    length (ou_detect ou p).2.1 = length (ou_detect ou p).2.2 /\ (Z.of_nat (length (ou_detect ou p).2.1) < 2 ^ 63)%Z;
  pv_masks : forall p mask, masks !! p = Some mask -> mask <> "" -> ou_mask_fits ou p mask = true;
  pv_limit : (- 2 ^ 31 <= fo_max_features opts < 2 ^ 31)%Z;
  pv_stored : fo_global opts = true -> forall n f, db_features d !! n = Some f -> length f.2 <> 0%nat }.

(** The database, the training features and the names given to the matcher after feature extraction. *)
Record extracted (paths : list string) (d : database) (s : shared K De M) := Extracted {
  xt_image : forall p n, p ∈ images paths -> ou_name ou p = Some n ->
    db_priors (sh_db s) !! n = prior_then d p n /\ db_features (sh_db s) !! n = features_then d p n;
  xt_other : forall n, (forall p, p ∈ images paths -> ou_name ou p <> Some n) ->
    db_priors (sh_db s) !! n = db_priors d !! n /\ db_features (sh_db s) !! n = db_features d !! n;
  xt_matches : db_matches (sh_db s) = db_matches d;
  xt_names_nodup : NoDup (sh_names s);
  xt_names : forall n, n ∈ sh_names s <-> exists p, p ∈ images paths /\ ou_name ou p = Some n /\ goes_on d p n = true;
  xt_training : sh_training s ≡ₚ
    (if fo_global opts then
       mjoin ((fun p => match ou_name ou p with
                        | Some n => if goes_on d p n then match features_then d p n with Some f => f.2 | None => [] end else []
                        | None => [] end) <$> images paths)
     else []) }.
End images.

Section pairs.
Context (n : nat) (distance : nat -> nat -> Qc) (k : nat).

(** The distance of the global descriptors of two images: it is symmetric, so that it is computed for [i < j] only. *)
Definition gap (i j : nat) : Qc := distance (Nat.min i j) (Nat.max i j).
(** Image [y] is nearer to [i] than [j] is; of images at the same distance the first one in the database is nearer. *)
Definition nearer (i y j : nat) : Prop := (gap i y < gap i j)%Qc \/ (gap i y = gap i j /\ (y < j)%nat).
Global Instance nearer_dec i y j : Decision (nearer i y j).
Proof. unfold nearer. apply _. Defined.
(** Image [j] is one of the [k] nearest neighbours of image [i]. *)
Definition neighbor (i j : nat) : Prop :=
  (i < n)%nat /\ (j < n)%nat /\ i <> j /\ (length (filter (fun y => y <> i /\ nearer i y j) (seq 0 n)) < k)%nat.
(** The images [a < b] are selected: one is a neighbour of the other, or [b] has a neighbour [s] in common with [a], or one
    that has [a] as a neighbour and comes before [b]. *)
Definition selected (a b : nat) : Prop :=
  neighbor a b \/ neighbor b a \/ exists s, neighbor b s /\ (neighbor a s \/ ((s < b)%nat /\ neighbor s a)).
End pairs.

Section races.
Context {K De M : Type} (ou : outside K De) (opts : fe_options).
(** Two accesses that must not happen at the same time. *)
Definition conflict (a b : access) : Prop :=
  ac_location a = ac_location b /\ (ac_write a = true \/ ac_write b = true) /\ ~ (ac_locked a = true /\ ac_locked b = true).
(** Two tasks are about to make conflicting accesses. *)
Definition race (s : state K De M) : Prop :=
  exists i j p q ph ph' a b, i <> j /\ st_tasks s !! i = Some (p, ph) /\ st_tasks s !! j = Some (q, ph') /\
    a ∈ accesses ou opts p ph /\ b ∈ accesses ou opts q ph' /\ conflict a b.
End races.
