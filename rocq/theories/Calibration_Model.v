(** Model of /repo/src/theia/io/write_calibration.cc and read_calibration.cc, with camera_intrinsics_prior.h:50-92.

    A text is a list of characters.  Doubles are exact rational numbers; infinite values, NaN and negative zero are left
    out.  The JSON parser (rapidjson) is an argument; [json_parse] below is one that follows its reader. *)
From stdpp Require Import gmap strings.
From Coq Require Import Ascii QArith Qabs Qcanon Qround.
From Verif Require Import Base.

Notation text := (list ascii).
Definition txt (s : string) : text := list_ascii_of_string s.
Definition nl : text := ["010"%char].
Definition quote : text := ["034"%char].

(** camera_intrinsics_prior.h:50-64, Prior<N>. *)
Record field := Field { is_set : bool; value : list Qc }.
Definition no_field (n : nat) : field := Field false (replicate n (Q2Qc 0)).
(** camera_intrinsics_prior.h:68-97, CameraIntrinsicsPrior. *)
Record calibration := Calibration {
  c_width : Z; c_height : Z; c_model : string;
  c_focal : field; c_point : field; c_aspect : field; c_skew : field; c_radial : field; c_tangential : field;
  c_position : field; c_orientation : field; c_latitude : field; c_longitude : field; c_altitude : field }.
Definition no_calibration : calibration :=
  Calibration 0 0 "PINHOLE" (no_field 1) (no_field 2) (no_field 1) (no_field 1) (no_field 4) (no_field 2)
    (no_field 3) (no_field 3) (no_field 1) (no_field 1) (no_field 1).

(** * Numbers as text *)
(** A decimal number: sign, digits before and after the point, and an exponent with its sign. *)
Record decimal := Decimal { d_neg : bool; d_int : list Z; d_frac : list Z; d_exp : option (bool * list Z) }.
Definition digit_char (d : Z) : ascii := ascii_of_nat (48 + Z.to_nat d).
Definition render (d : decimal) : text :=
  (if d_neg d then ["-"%char] else []) ++ (digit_char <$> d_int d) ++
  (match d_frac d with [] => [] | fs => "."%char :: (digit_char <$> fs) end) ++
  (match d_exp d with None => [] | Some (neg, es) => ["e"; if neg : bool then "-" else "+"]%char ++ (digit_char <$> es) end).

(** The decimal digits of a natural number. *)
Fixpoint digits_loop (fuel : nat) (z : Z) : list Z :=
  match fuel with
  | O => []
  | S fuel => if decide (z < 10)%Z then [z] else digits_loop fuel (z / 10) ++ [z mod 10]%Z
  end.
Definition digits (z : Z) : list Z := digits_loop (S (Z.to_nat (Z.log2 z))) z.
(** operator<<(int). *)
Definition decimal_of_int (z : Z) : decimal := Decimal (bool_decide (z < 0)%Z) (digits (Z.abs z)) [] None.

(** operator<<(double) with the default format, which is that of printf("%g"): six significant digits, rounded to nearest;
    an exponent if it is below -4 or above 5; no trailing zeros. *)
Definition ten (k : Z) : Q := (10 # 1) ^ k.
Fixpoint exponent_loop (fuel : nat) (a : Q) (e : Z) : Z :=
  match fuel with
  | O => e
  | S fuel => if Qle_bool (ten e) a then e else exponent_loop fuel a (e - 1)
  end.
(** The largest [e] with 10^e not above [a]. *)
Definition exponent (a : Q) : Z :=
  let l := (Z.log2 (Qnum a) + Z.log2 (Zpos (Qden a)) + 2)%Z in
  exponent_loop (Z.to_nat (2 * l + 1)) a l.
Definition round_even (s : Q) : Z :=
  let f := Qfloor s in
  let r := (s - inject_Z f)%Q in
  if Qle_bool (1 # 2) r then
    if Qle_bool r (1 # 2) then (if Z.even f then f else f + 1)%Z else (f + 1)%Z
  else f.
(** The six significant digits of a positive number as an integer, and its exponent. *)
Definition significant (a : Q) : Z * Z :=
  let e := exponent a in
  let m := round_even (a / ten (e - 5)) in
  if decide (m = 1000000)%Z then (100000, e + 1)%Z else (m, e).
Fixpoint strip (l : list Z) : list Z :=
  match l with
  | [] => []
  | d :: l => match strip l with [] => if decide (d = 0)%Z then [] else [d] | l' => d :: l' end
  end.
Definition pad_two (l : list Z) : list Z := match l with [d] => [0%Z; d] | _ => l end.
Definition decimal_of (x : Qc) : decimal :=
  if decide (x = Q2Qc 0) then Decimal false [0%Z] [] None
  else
    let neg := bool_decide (x < Q2Qc 0)%Qc in
    let '(m, e) := significant (Qabs (this x)) in
    let ds := digits m in
    if decide (-4 <= e < 6)%Z then
      if decide (0 <= e)%Z
      then Decimal neg (take (Z.to_nat (e + 1)) ds) (strip (drop (Z.to_nat (e + 1)) ds)) None
      else Decimal neg [0%Z] (replicate (Z.to_nat (- e - 1)) 0%Z ++ strip ds) None
    else Decimal neg (take 1 ds) (strip (drop 1 ds)) (Some (bool_decide (e < 0)%Z, pad_two (digits (Z.abs e)))).
Definition print (x : Qc) : text := render (decimal_of x).
Definition print_int (z : Z) : text := render (decimal_of_int z).

(** * write_calibration.cc *)
(** write_calibration.cc:60-118: a member with a number, and one with an array. *)
Definition key_text (k : string) : text := quote ++ txt k ++ quote ++ txt " : ".
Definition write_number (k : string) (f : field) : text :=
  if is_set f then txt "," ++ nl ++ key_text k ++ print (nth 0 (value f) (Q2Qc 0)) else [].
Fixpoint comma_list (l : list text) : text :=
  match l with [] => [] | [t] => t | t :: l => t ++ txt ", " ++ comma_list l end.
Definition write_array (k : string) (f : field) : text :=
  if is_set f then txt "," ++ nl ++ key_text k ++ txt "[" ++ comma_list (print <$> value f) ++ txt "]" else [].
(** write_calibration.cc:48-121, WritePrior. *)
Definition write_prior (name : string) (p : calibration) : text :=
  txt "{" ++ key_text "CameraIntrinsicsPrior" ++ txt "{" ++ nl ++
  key_text "image_name" ++ quote ++ txt name ++ quote ++ txt "," ++ nl ++
  key_text "width" ++ print_int (c_width p) ++ txt "," ++ nl ++
  key_text "height" ++ print_int (c_height p) ++ txt "," ++ nl ++
  key_text "camera_intrinsics_type" ++ quote ++ txt (c_model p) ++ quote ++
  write_number "focal_length" (c_focal p) ++
  write_array "principal_point" (c_point p) ++
  write_number "aspect_ratio" (c_aspect p) ++
  write_number "skew" (c_skew p) ++
  write_array "radial_distortion_coeffs" (c_radial p) ++
  write_array "tangential_distortion_coeffs" (c_tangential p) ++
  write_array "position" (c_position p) ++
  write_array "orientation" (c_orientation p) ++
  write_number "latitude" (c_latitude p) ++
  write_number "longitude" (c_longitude p) ++
  write_number "altitude" (c_altitude p) ++
  nl ++ txt "}}".
(** write_calibration.cc:150-154, the priors after the first one. *)
Definition write_rest (l : list (string * calibration)) : text :=
  foldl (fun t np => t ++ txt "," ++ nl ++ write_prior np.1 np.2) [] l.
(** write_calibration.cc:125-161, WriteCalibration: what is in the file if the call returns true.  [o] is the iteration order of the map.  Opening
    the file succeeds; that the stream can fail when it is written is not looked at. *)
Definition write_calibration (o : order (string * calibration)) (m : gmap string calibration) : option text :=
  match o (map_to_list m) with
  | [] => None
  | np :: rest => Some (txt "{" ++ nl ++ quote ++ txt "priors" ++ quote ++ txt " : [" ++ nl ++
                        write_prior np.1 np.2 ++ write_rest rest ++ nl ++ txt "]" ++ nl ++ txt "}" ++ nl)
  end.

(** * JSON documents (rapidjson/document.h).  Asking a value for something it is not is a failed assertion, or undefined
      behaviour when assertions are off. *)
Inductive json :=
| JNull | JBool (b : bool) | JInt (z : Z) | JReal (q : Qc) | JString (s : string) | JArray (l : list json) | JObject (l : list (string * json)).
(** HasMember and operator[]: the first member with the name. *)
Fixpoint find_member (k : string) (l : list (string * json)) : option json :=
  match l with [] => None | (k', j) :: l => if decide (k' = k) then Some j else find_member k l end.
Definition member (j : json) (k : string) : outcome (option json) :=
  match j with JObject l => Ok (find_member k l) | _ => UB end.
(** IsInt, IsDouble: an integer that does not fit into 64 bits becomes a double. *)
Definition is_int (j : json) : bool := match j with JInt z => bool_decide (- 2 ^ 31 <= z < 2 ^ 31)%Z | _ => false end.
Definition is_double (j : json) : bool :=
  match j with JReal _ => true | JInt z => bool_decide (z < - 2 ^ 63 \/ 2 ^ 64 <= z)%Z | _ => false end.
Definition is_number (j : json) : bool := is_double j || is_int j.
Definition get_double (j : json) : outcome Qc :=
  match j with JReal q => Ok q | JInt z => Ok (Q2Qc (inject_Z z)) | _ => UB end.
Definition get_string (j : json) : outcome string := match j with JString s => Ok s | _ => UB end.

(** * read_calibration.cc *)
(** read_calibration.cc:86-97 and the like: the numbers in an array are copied one by one. *)
Fixpoint fill (old : list Qc) (l : list json) : list Qc :=
  match old, l with
  | x :: old, j :: l => (if is_number j then match get_double j with Ok q => q | _ => x end else x) :: fill old l
  | old, _ => old
  end.
Definition read_array (entry : json) (k : string) (f : field) : outcome field :=
  m ← member entry k;
  match m with
  | Some (JArray l) =>
      let n := length (value f) in
      Ok (Field (negb (bool_decide (l = [])) && forallb is_number (take n l)) (fill (value f) l))
  | _ => Ok f
  end.
(** read_calibration.cc:128-133 and the like. *)
Definition read_number (entry : json) (k : string) (f : field) : outcome field :=
  m ← member entry k;
  match m with
  | Some j => if is_number j then q ← get_double j; Ok (Field true [q]) else Ok f
  | None => Ok f
  end.
(** read_calibration.cc:75-79: the focal length has to be a number. *)
Definition read_focal (entry : json) (f : field) : outcome field :=
  m ← member entry "focal_length";
  match m with Some j => q ← get_double j; Ok (Field true [q]) | None => Ok f end.
(** read_calibration.cc:118-126. *)
Definition read_int (entry : json) (k : string) (z : Z) : outcome Z :=
  m ← member entry k;
  match m with Some (JInt x) => if is_int (JInt x) then Ok x else Ok z | _ => Ok z end.
(** static_cast<int> of a double (read_calibration.cc:100-103). *)
Definition to_int_trunc (q : Qc) : outcome Z :=
  let z := Z.quot (Qnum (this q)) (Zpos (Qden (this q))) in
  if decide (- 2 ^ 31 <= z < 2 ^ 31)%Z then Ok z else UB.
(** camera_intrinsics_model_type.h:56-73 and 97-112. *)
Definition valid_model (s : string) : bool :=
  bool_decide (s = "PINHOLE") || bool_decide (s = "PINHOLE_RADIAL_TANGENTIAL") || bool_decide (s = "FISHEYE") ||
  bool_decide (s = "FOV") || bool_decide (s = "DIVISION_UNDISTORTION").
(** read_calibration.cc:73-236, ExtractPriorParameters. *)
Definition extract_parameters (entry : json) (p : calibration) : outcome calibration :=
  focal ← read_focal entry (c_focal p);
  had ← member entry "principal_point";
  point ← read_array entry "principal_point" (c_point p);
  '(w, h) ← (match had with
             | Some (JArray _) =>
                 if is_set point then
                   w ← to_int_trunc (Q2Qc 2 * nth 0 (value point) (Q2Qc 0))%Qc;
                   h ← to_int_trunc (Q2Qc 2 * nth 1 (value point) (Q2Qc 0))%Qc;
                   Ok (w, h)
                 else Ok (c_width p, c_height p)
             | _ => Ok (c_width p, c_height p)
             end);
  model ← member entry "camera_intrinsics_type";
  let model := match model with Some (JString s) => if valid_model s then s else c_model p | _ => c_model p end in
  w ← read_int entry "width" w;
  h ← read_int entry "height" h;
  aspect ← read_number entry "aspect_ratio" (c_aspect p);
  skew ← read_number entry "skew" (c_skew p);
  radial ← read_array entry "radial_distortion_coeffs" (c_radial p);
  tangential ← read_array entry "tangential_distortion_coeffs" (c_tangential p);
  position ← read_array entry "position" (c_position p);
  orientation ← read_array entry "orientation" (c_orientation p);
  latitude ← read_number entry "latitude" (c_latitude p);
  longitude ← read_number entry "longitude" (c_longitude p);
  altitude ← read_number entry "altitude" (c_altitude p);
  Ok (Calibration w h model focal point aspect skew radial tangential position orientation latitude longitude altitude).
(** read_calibration.cc:238-265, ExtractCameraIntrinsicsPrior: the name and the prior; nothing if there is no name. *)
Definition extract_prior (entry : json) : outcome (option (string * calibration)) :=
  n ← member entry "image_name";
  match n with
  | None => Ok None
  | Some n =>
      name ← get_string n;
      t ← member entry "camera_intrinsics_type";
      model ← (match t with None => Ok "PINHOLE"%string | Some t => get_string t end);
      _ ← check (valid_model model);
      p ← extract_parameters entry no_calibration;
      Ok (Some (name, p))
  end.
(** read_calibration.cc:286-297: one entry of the array. *)
Definition read_entry (m : gmap string calibration) (j : json) : outcome (gmap string calibration) :=
  e ← member j "CameraIntrinsicsPrior";
  match e with
  | None => Ok m
  | Some e => r ← extract_prior e; Ok (match r with Some (name, p) => <[name := p]> m | None => m end)
  end.
(** read_calibration.cc:269-300, ExtractCameraIntrinsicPriorsFromJson.  After a failed parse the document is null.  (c_str() ends the text at a
    null character; that is left to the parser.) *)
Definition extract_json (parse : text -> option json) (t : text) (m : gmap string calibration) : outcome (bool * gmap string calibration) :=
  let doc := default JNull (parse t) in
  ps ← member doc "priors";
  match ps with
  | Some (JArray l) => m ← run_steps read_entry m l; Ok (true, m)
  | _ => Ok (false, m)
  end.
(** read_calibration.cc:323-331: the text up to the last closing brace. *)
Fixpoint cut (t : text) : option text :=
  match t with
  | [] => None
  | c :: t => match cut t with Some t' => Some (c :: t') | None => if decide (c = "}"%char) then Some [c] else None end
  end.
(** read_calibration.cc:302-338, ReadCalibration of a file with the content [file]; [None] for a file that cannot be opened. *)
Definition read_calibration (parse : text -> option json) (file : option text) (m : gmap string calibration) : outcome (bool * gmap string calibration) :=
  match file with
  | None => Ok (false, m)
  | Some t => match cut t with None => Ok (false, m) | Some t => extract_json parse t m end
  end.

(** * A parser (rapidjson/reader.h), without escape sequences in strings *)
Definition blank (c : ascii) : bool := bool_decide (c ∈ [" "; "010"; "013"; "009"]%char).
Fixpoint skip (t : text) : text := match t with c :: t' => if blank c then skip t' else t | [] => [] end.
Definition digit_of (c : ascii) : option Z :=
  let n := nat_of_ascii c in if decide (48 <= n <= 57)%nat then Some (Z.of_nat n - 48)%Z else None.
Fixpoint scan_digits (t : text) : list Z * text :=
  match t with
  | c :: t' => match digit_of c with Some d => let '(ds, r) := scan_digits t' in (d :: ds, r) | None => ([], t) end
  | [] => ([], [])
  end.
(** A character that may be in a string without an escape sequence: no quote, no backslash, no control character. *)
Definition plain_char (c : ascii) : bool :=
  bool_decide (c <> "034"%char /\ c <> "092"%char /\ (32 <= nat_of_ascii c)%nat).
Fixpoint scan_string (t : text) : option (text * text) :=
  match t with
  | [] => None
  | c :: t' =>
      if decide (c = "034"%char) then Some ([], t')
      else if plain_char c then match scan_string t' with Some (s, r) => Some (c :: s, r) | None => None end else None
  end.
(** The number that the digits stand for. *)
Definition number_of (ds : list Z) : Z := foldl (fun n d => 10 * n + d)%Z 0%Z ds.
Definition signed (neg : bool) (z : Z) : Z := if neg then (- z)%Z else z.
Definition json_of (d : decimal) : json :=
  match d_frac d, d_exp d with
  | [], None => JInt (signed (d_neg d) (number_of (d_int d)))
  | fs, e =>
      let k := (match e with None => 0 | Some (neg, es) => signed neg (number_of es) end - Z.of_nat (length fs))%Z in
      JReal (Q2Qc (inject_Z (signed (d_neg d) (number_of (d_int d ++ fs))) * ten k))
  end.
Definition scan_number (t : text) : option (json * text) :=
  let '(neg, t) := match t with "-"%char :: t' => (true, t') | _ => (false, t) end in
  let '(int, t) := scan_digits t in
  if bool_decide (int = [] \/ ((1 < length int)%nat /\ head int = Some 0%Z)) then None
  else
    match (match t with
           | "."%char :: t' => let '(fs, r) := scan_digits t' in if bool_decide (fs = []) then None else Some (fs, r)
           | _ => Some ([], t)
           end) with
    | None => None
    | Some (fs, t) =>
        match t with
        | "e"%char :: t' =>
            let '(eneg, t') := match t' with "-"%char :: r => (true, r) | "+"%char :: r => (false, r) | _ => (false, t') end in
            let '(es, r) := scan_digits t' in
            if bool_decide (es = []) then None else Some (json_of (Decimal neg int fs (Some (eneg, es))), r)
        | _ => Some (json_of (Decimal neg int fs None), t)
        end
    end.
Fixpoint parse_value (n : nat) (t : text) : option (json * text) :=
  match n with
  | O => None
  | S n =>
      match t with
      | "034"%char :: r => match scan_string r with Some (s, r) => Some (JString (string_of_list_ascii s), r) | None => None end
      | "["%char :: r =>
          match skip r with
          | "]"%char :: r' => Some (JArray [], r')
          | _ => match parse_items n r with Some (l, r) => Some (JArray l, r) | None => None end
          end
      | "{"%char :: r =>
          match skip r with
          | "}"%char :: r' => Some (JObject [], r')
          | _ => match parse_members n r with Some (l, r) => Some (JObject l, r) | None => None end
          end
      | _ =>
          if bool_decide (take 4 t = txt "null") then Some (JNull, drop 4 t)
          else if bool_decide (take 4 t = txt "true") then Some (JBool true, drop 4 t)
          else if bool_decide (take 5 t = txt "false") then Some (JBool false, drop 5 t)
          else scan_number t
      end
  end
with parse_items (n : nat) (t : text) : option (list json * text) :=
  match n with
  | O => None
  | S n =>
      match parse_value n (skip t) with
      | Some (j, r) =>
          match skip r with
          | ","%char :: r => match parse_items n r with Some (l, r) => Some (j :: l, r) | None => None end
          | "]"%char :: r => Some ([j], r)
          | _ => None
          end
      | None => None
      end
  end
with parse_members (n : nat) (t : text) : option (list (string * json) * text) :=
  match n with
  | O => None
  | S n =>
      match skip t with
      | "034"%char :: r =>
          match scan_string r with
          | Some (k, r) =>
              match skip r with
              | ":"%char :: r =>
                  match parse_value n (skip r) with
                  | Some (j, r) =>
                      match skip r with
                      | ","%char :: r => match parse_members n r with Some (l, r) => Some ((string_of_list_ascii k, j) :: l, r) | None => None end
                      | "}"%char :: r => Some ([(string_of_list_ascii k, j)], r)
                      | _ => None
                      end
                  | None => None
                  end
              | _ => None
              end
          | None => None
          end
      | _ => None
      end
  end.
Definition json_parse (t : text) : option json :=
  match parse_value (2 * length t + 2) (skip t) with
  | Some (j, r) => if bool_decide (skip r = []) then Some j else None
  | None => None
  end.
