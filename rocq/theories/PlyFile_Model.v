(** Model of /repo/src/theia/io/write_ply_file.cc.  A file is the list of its lines, each of which ends with a newline. *)
From stdpp Require Import gmap strings pretty.
From Verif Require Import Base Reconstruction_Model.

(** track.cc:52-54: the number of views is converted to int. *)
Definition as_int (n : nat) : Z := ((Z.of_nat n + 2 ^ 31) mod 2 ^ 32 - 2 ^ 31)%Z.

Section model.
Context {F C D A : Type}.
Notation recon := (recon F C D).
(** The normalized point and the color of a track, the position of a camera, and how Eigen prints a row of three numbers:
    arguments. *)
Context (point : D -> A) (color : D -> Z * Z * Z) (position : C -> A) (show_point : A -> string) (show_color : Z * Z * Z -> string).

(** 47-59, GatherTracks.  [o] is the iteration order of the unordered set of ids. *)
Definition gather_track (r : recon) (l : list (A * (Z * Z * Z))) (t : N) : outcome (list (A * (Z * Z * Z))) :=
  T ← or_ub (rc_tracks r !! t);
  Ok (l ++ [(point (t_data T), color (t_data T))]).
(** 61-73, GatherCameras. *)
Definition gather_camera (r : recon) (l : list (A * (Z * Z * Z))) (u : N) : outcome (list (A * (Z * Z * Z))) :=
  v ← or_ub (rc_views r !! u);
  Ok (if negb (v_est v) then l else l ++ [(position (v_data v), (0, 255, 0)%Z)]).

(** 94-99, the loop that removes tracks from the copy. *)
Definition ply_remove (o : order N) (min : Z) (r : recon) (t : N) : outcome recon :=
  T ← or_ub (rc_tracks r !! t);
  if negb (t_est T) || bool_decide (as_int (size (t_views T)) < min)%Z then Ok (rc_remove_track o r t).1 else Ok r.

(** 107-116, the header. *)
Definition ply_header (n : nat) : list string :=
  ["ply"; "format ascii 1.0"; "element vertex " +:+ pretty (N.of_nat n); "property float x"; "property float y"; "property float z";
   "property uchar red"; "property uchar green"; "property uchar blue"; "end_header"].
(** 119-120. *)
Definition ply_line (x : A * (Z * Z * Z)) : string := show_point x.1 +:+ " " +:+ show_color x.2.

(** 76-123, WritePlyFile.  [opened] says whether the file could be opened, [room] how many lines can be written before the
    stream fails, after which it ignores all output.  The result is the returned value and the new contents of the file, if
    it was touched.  An [int] counts the lines (118), which overflows with 2^31 of them. *)
Definition write_ply (o : order N) (name : string) (min : Z) (opened : bool) (room : nat) (r : recon) : outcome (bool * option (list string)) :=
  _ ← check (bool_decide (0 < String.length name)%nat);
  if negb opened then Ok (false, None)
  else
    r ← run_steps (ply_remove o min) r (o (elements (dom (rc_tracks r))));
    l ← run_steps (gather_track r) [] (o (elements (dom (rc_tracks r))));
    l ← run_steps (gather_camera r) l (o (elements (dom (rc_views r))));
    if decide (Z.of_nat (length l) < 2 ^ 31)%Z
    then Ok (true, Some (take room (ply_header (length l) ++ (ply_line <$> l))))
    else UB.
End model.
