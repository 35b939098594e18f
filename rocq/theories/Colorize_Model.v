(** Model of /repo/src/theia/sfm/colorize_reconstruction.cc with /repo/src/theia/image/image.cc:130-138 (GetXY).

    Floats are exact rational numbers.  The threads of the pool take turns in any way: a schedule names the image whose task makes
    the next step, and one step is what is done while the lock is held, or the reading of the image. *)
From stdpp Require Import gmap strings.
From Coq Require Import QArith Qcanon Qround.
From Verif Require Import Base Reconstruction_Model.

Definition vec : Type := Qc * Qc * Qc.
Definition vadd (a b : vec) : vec := let '(a1, a2, a3) := a in let '(b1, b2, b3) := b in (a1 + b1, a2 + b2, a3 + b3)%Qc.
Definition vscale (q : Qc) (a : vec) : vec := let '(a1, a2, a3) := a in (q * a1, q * a2, q * a3)%Qc.
Definition vzero : vec := (Q2Qc 0, Q2Qc 0, Q2Qc 0).
(** Eigen::Matrix<uint8_t, 3, 1>. *)
Definition bytes : Type := Z * Z * Z.
Notation feature := (Qc * Qc)%type.

(** FloatImage. *)
Record image := Image { im_channels : Z; im_width : Z; im_height : Z; im_pixel : Z -> Z -> vec }.
(** static_cast<int> and static_cast<uint8_t>: undefined if the number without its fraction does not fit. *)
Definition trunc (q : Qc) : Z := Z.quot (Qnum (this q)) (Zpos (Qden (this q))).
Definition to_int (q : Qc) : outcome Z := let z := trunc q in if decide (- 2 ^ 31 <= z < 2 ^ 31)%Z then Ok z else UB.
Definition to_byte (q : Qc) : outcome Z := let z := trunc q in if decide (0 <= z < 256)%Z then Ok z else UB.
(** image.cc:130-138: a pixel outside of the image is a failed DCHECK, here undefined; getpixel writes as many numbers as there are
    channels, and the other numbers of the vector are not initialized. *)
Definition get_xy (im : image) (x y : Z) : outcome vec :=
  if decide ((0 <= x < im_width im) /\ (0 <= y < im_height im))%Z then
    if decide (3 <= im_channels im)%Z then Ok (im_pixel im x y) else UB
  else UB.

Section colorize.
Context {C P : Type}.
Notation recon := (recon feature C (P * bytes)).
Notation view := (view feature C).

(** The task of one image: not started, or with the image and the tracks that are left. *)
Inductive task := Todo (file : string) (v : view) | Running (im : image) (v : view) (more : list N).
(** The images that can be read. *)
Context (files : string -> option image) (directory_exists : string -> bool).
(** The order in which a view lists its tracks. *)
Context (ot : string -> order N).

(** colorize_reconstruction.cc:59-84, ExtractColorsFromImage, step by step.  The branches for three channels and for one are the same. *)
Definition task_step (colors : gmap N vec) (k : task) : outcome (gmap N vec * task) :=
  match k with
  | Todo file v =>
      im ← or_die (files file);
      if decide (im_channels im = 3 \/ im_channels im = 1)%Z
      then Ok (colors, Running im v (ot (v_name v) (elements (dom (v_feats v)))))
      else CheckFail
  | Running im v [] => Ok (colors, k)
  | Running im v (t :: more) =>
      f ← or_ub (v_feats v !! t);
      x ← to_int f.1;
      y ← to_int f.2;
      c ← or_ub (colors !! t);
      rgb ← get_xy im x y;
      Ok (<[t := vadd c (vscale (Q2Qc 255) rgb)]> colors, Running im v more)
  end.
(** One step of the [i]-th task. *)
Definition pool_step (s : gmap N vec * list task) (i : nat) : outcome (gmap N vec * list task) :=
  match s.2 !! i with
  | None => Ok s
  | Some k => '(colors, k) ← task_step s.1 k; Ok (colors, <[i := k]> s.2)
  end.
Definition finished (k : task) : bool := match k with Running _ _ [] => true | _ => false end.

(** colorize_reconstruction.cc:111-123: the task for one view.  (That tasks start to run before the last one is added changes nothing that
    they do.) *)
Definition new_task (r : recon) (dir : string) (ks : list task) (u : N) : outcome (list task) :=
  v ← or_ub (rc_views r !! u);
  let file := (dir ++ v_name v)%string in
  _ ← check (bool_decide (is_Some (files file)));
  Ok (ks ++ [Todo file v]).
(** colorize_reconstruction.cc:129-135: the mean color of one track; with no views it is 0/0, which no integer stands for. *)
Definition mean_step (colors : gmap N vec) (r : recon) (t : N) : outcome recon :=
  c ← or_die (colors !! t);
  T ← or_ub (rc_tracks r !! t);
  let n := size (t_views T) in
  if decide (n = 0)%nat then UB
  else
    let '(c1, c2, c3) := vscale (/ Q2Qc (inject_Z (Z.of_nat n)))%Qc c in
    b1 ← to_byte c1; b2 ← to_byte c2; b3 ← to_byte c3;
    Ok (set_tracks r (<[t := Track (t_est T) ((t_data T).1, (b1, b2, b3)) (t_views T)]> (rc_tracks r))).
(** colorize_reconstruction.cc:89-136, ColorizeReconstruction.  [o] orders the tracks and [ov] the views. *)
Definition colorize (o ov : order N) (sched : list nat) (dir : string) (num_threads : Z) (r : recon) : outcome recon :=
  _ ← check (directory_exists dir);
  _ ← check (bool_decide (0 < num_threads)%Z);
  let ids := o (elements (dom (rc_tracks r))) in
  let colors := foldl (fun m t => <[t := vzero]> m) (∅ : gmap N vec) ids in
  ks ← run_steps (new_task r dir) [] (ov (elements (dom (rc_views r))));
  '(colors, ks) ← run_steps pool_step (colors, ks) sched;
  if forallb finished ks then run_steps (mean_step colors) r ids else Hang.
End colorize.
Arguments task : clear implicits.
