(** What is expected of calibration files: the texts that stand for a JSON document, and which calibration comes back. *)
From stdpp Require Import gmap strings.
From Coq Require Import Ascii QArith Qabs Qcanon.
From Verif Require Import Base Calibration_Model.

(** * JSON texts (RFC 8259), as far as they are needed *)
(** A JSON number has digits before the point, no leading zeros, and digits in the exponent if there is one; [json_of] is the
    number it stands for: an integer if there is no fraction and no exponent. *)
Definition proper (d : decimal) : Prop :=
  Forall (fun x => 0 <= x < 10)%Z (d_int d) /\ Forall (fun x => 0 <= x < 10)%Z (d_frac d) /\
  (d_int d = [0%Z] \/ exists x l, d_int d = x :: l /\ x <> 0%Z) /\
  match d_exp d with None => True | Some (_, es) => es <> [] /\ Forall (fun x => 0 <= x < 10)%Z es end.
Definition blanks (t : text) : Prop := Forall (fun c => blank c = true) t.
(** A string without quotes, backslashes and control characters. *)
Definition plain (s : string) : Prop := Forall (fun c => plain_char c = true) (txt s).

Inductive value_text : json -> text -> Prop :=
| vt_string s : plain s -> value_text (JString s) (quote ++ txt s ++ quote)
| vt_number d : proper d -> value_text (json_of d) (render d)
| vt_array l t : items_text l t -> value_text (JArray l) (txt "[" ++ t ++ txt "]")
| vt_object l t : members_text l t -> value_text (JObject l) (txt "{" ++ t ++ txt "}")
with items_text : list json -> text -> Prop :=
| it_one a j t b : blanks a -> value_text j t -> blanks b -> items_text [j] (a ++ t ++ b)
| it_more a j t b l t' : blanks a -> value_text j t -> blanks b -> items_text l t' -> items_text (j :: l) (a ++ t ++ b ++ txt "," ++ t')
with members_text : list (string * json) -> text -> Prop :=
| mt_one a k b c j t d : blanks a -> plain k -> blanks b -> blanks c -> value_text j t -> blanks d ->
    members_text [(k, j)] (a ++ quote ++ txt k ++ quote ++ b ++ txt ":" ++ c ++ t ++ d)
| mt_more a k b c j t d l t' : blanks a -> plain k -> blanks b -> blanks c -> value_text j t -> blanks d -> members_text l t' ->
    members_text ((k, j) :: l) (a ++ quote ++ txt k ++ quote ++ b ++ txt ":" ++ c ++ t ++ d ++ txt "," ++ t').
(** A parser that understands these texts. *)
Definition parser_ok (parse : text -> option json) : Prop := forall j t, value_text j t -> parse t = Some j.

(** * Numbers with six digits *)
(** The number that is read for [x] is within five millionths of it, and the same if six digits are enough for [x]. *)
Definition short (x : Qc) : Prop := exists m k, (Z.abs m < 1000000)%Z /\ this x == inject_Z m * ten k.
Definition read_for (x y : Qc) : Prop :=
  (Qabs (this y - this x) <= (5 # 1000000) * Qabs (this x))%Q /\ (short x -> y = x).

(** * Calibrations *)
Definition same_field (f g : field) : Prop :=
  is_set g = is_set f /\ length (value g) = length (value f) /\
  (if is_set f then Forall2 read_for (value f) (value g) else Forall (fun y => y = Q2Qc 0) (value g)).
Definition same_calibration (p q : calibration) : Prop :=
  c_width q = c_width p /\ c_height q = c_height p /\ c_model q = c_model p /\
  same_field (c_focal p) (c_focal q) /\ same_field (c_point p) (c_point q) /\ same_field (c_aspect p) (c_aspect q) /\
  same_field (c_skew p) (c_skew q) /\ same_field (c_radial p) (c_radial q) /\ same_field (c_tangential p) (c_tangential q) /\
  same_field (c_position p) (c_position q) /\ same_field (c_orientation p) (c_orientation q) /\
  same_field (c_latitude p) (c_latitude q) /\ same_field (c_longitude p) (c_longitude q) /\ same_field (c_altitude p) (c_altitude q).

Definition int32 (z : Z) : Prop := (- 2 ^ 31 <= z < 2 ^ 31)%Z.
(** What a caller has to provide: arrays as long as their types say, a camera type that exists, a name without special
    characters, image sizes that are ints, and a principal point whose double is one. *)
Definition storable (name : string) (p : calibration) : Prop :=
  plain name /\ valid_model (c_model p) = true /\ int32 (c_width p) /\ int32 (c_height p) /\
  length (value (c_focal p)) = 1%nat /\ length (value (c_point p)) = 2%nat /\ length (value (c_aspect p)) = 1%nat /\
  length (value (c_skew p)) = 1%nat /\ length (value (c_radial p)) = 4%nat /\ length (value (c_tangential p)) = 2%nat /\
  length (value (c_position p)) = 3%nat /\ length (value (c_orientation p)) = 3%nat /\
  length (value (c_latitude p)) = 1%nat /\ length (value (c_longitude p)) = 1%nat /\ length (value (c_altitude p)) = 1%nat /\
  Forall (fun x => Qabs (this x) <= 1000000000 # 1)%Q (value (c_point p)).

(** * What an entry of the file says *)
(** The number that an element stands for, and zero for anything else. *)
Definition number_in (o : option json) : option Qc :=
  match o with Some j => if is_number j then match get_double j with Ok q => Some q | _ => None end else None | None => None end.
(** A field with one number: set if the member is there and is a number. *)
Definition number_field (o : option json) (f : field) : Prop :=
  match number_in o with Some q => f = Field true [q] | None => f = Field false [Q2Qc 0] end.
(** A field with [n] numbers: the elements of the array that are numbers, zero for the others; set if the array is not empty and
    its first [n] elements are all numbers. *)
Definition array_field (n : nat) (o : option json) (f : field) : Prop :=
  let l := match o with Some (JArray l) => l | _ => [] end in
  length (value f) = n /\
  (forall i, (i < n)%nat -> value f !! i = Some (default (Q2Qc 0) (number_in (l !! i)))) /\
  (is_set f = true <-> l <> [] /\ forall i j, (i < n)%nat -> l !! i = Some j -> is_number j = true).
(** The image size: the member if it is an int, otherwise twice the coordinate of the principal point if that is known, without its
    fraction, otherwise zero. *)
Definition size_field (o : option json) (point : field) (i : nat) (z : Z) : Prop :=
  match o with
  | Some (JInt x) => if is_int (JInt x) then z = x else if is_set point then to_int_trunc (Q2Qc 2 * nth i (value point) (Q2Qc 0))%Qc = Ok z else z = 0%Z
  | _ => if is_set point then to_int_trunc (Q2Qc 2 * nth i (value point) (Q2Qc 0))%Qc = Ok z else z = 0%Z
  end.
Definition model_field (o : option json) (s : string) : Prop := match o with Some j => j = JString s | None => s = "PINHOLE"%string end.
Definition says (d : list (string * json)) (p : calibration) : Prop :=
  size_field (find_member "width" d) (c_point p) 0 (c_width p) /\ size_field (find_member "height" d) (c_point p) 1 (c_height p) /\
  model_field (find_member "camera_intrinsics_type" d) (c_model p) /\
  match find_member "focal_length" d with Some j => exists q, get_double j = Ok q /\ c_focal p = Field true [q] | None => c_focal p = Field false [Q2Qc 0] end /\
  array_field 2 (find_member "principal_point" d) (c_point p) /\
  number_field (find_member "aspect_ratio" d) (c_aspect p) /\ number_field (find_member "skew" d) (c_skew p) /\
  array_field 4 (find_member "radial_distortion_coeffs" d) (c_radial p) /\ array_field 2 (find_member "tangential_distortion_coeffs" d) (c_tangential p) /\
  array_field 3 (find_member "position" d) (c_position p) /\ array_field 3 (find_member "orientation" d) (c_orientation p) /\
  number_field (find_member "latitude" d) (c_latitude p) /\ number_field (find_member "longitude" d) (c_longitude p) /\ number_field (find_member "altitude" d) (c_altitude p).
(** An entry that can be used: it has a name and a known camera type or none, the focal length is a number if it is given, and so are
    the numbers of the principal point small enough for an int when they are doubled. *)
Definition usable (d : list (string * json)) (name : string) : Prop :=
  find_member "image_name" d = Some (JString name) /\
  match find_member "camera_intrinsics_type" d with Some j => exists s, j = JString s /\ valid_model s = true | None => True end /\
  match find_member "focal_length" d with Some j => exists q, get_double j = Ok q | None => True end /\
  match find_member "principal_point" d with
  | Some (JArray l) => forall i q, (i < 2)%nat -> number_in (l !! i) = Some q -> (Qabs (this q) <= 1000000000 # 1)%Q
  | _ => True
  end.
(** An entry of the "priors" array: one that can be used, or one without a prior or without a name. *)
Inductive entry_is : json -> option (string * list (string * json)) -> Prop :=
| ei_used l d name : find_member "CameraIntrinsicsPrior" l = Some (JObject d) -> usable d name -> entry_is (JObject l) (Some (name, d))
| ei_no_prior l : find_member "CameraIntrinsicsPrior" l = None -> entry_is (JObject l) None
| ei_no_name l d : find_member "CameraIntrinsicsPrior" l = Some (JObject d) -> find_member "image_name" d = None -> entry_is (JObject l) None.
