(* Recording a video: bark/runtime/viewer/video_renderer.py (VideoRenderer) over the viewer it wraps, which saves one
   picture per call under the given file name (matplotlib_viewer.py:140-151). A picture is the world it shows; the frame
   directory maps frame numbers to pictures (the file name "{:03d}.png" of a number is the one ffmpeg's %03d looks for).
   ffmpeg itself is reduced to the frames it reads: number 0, 1, 2, ... up to the first one missing. *)
From Coq Require Import String List ZArith QArith Bool Arith.
Import ListNotations.
Local Open Scope nat_scope.

Section Video.
  Variable W : Type.
  (* World::GetWorldAtTime, World.time *)
  Variable at_time : W -> Q -> W.
  Variable time : W -> Q.

  Definition frames := list (nat * W).
  Fixpoint frame (n : nat) (d : frames) : option W :=
    match d with [] => None | (k, w) :: r => if Nat.eqb n k then Some w else frame n r end.
  (* saving over a file of the same name replaces it *)
  Definition save (n : nat) (w : W) (d : frames) : frames := (n, w) :: filter (fun e => negb (Nat.eqb n (fst e))) d.

  (* directory (None: it does not exist), frame_count, world_step_time, render_intermediate_steps *)
  Record recorder := mkRec { r_dir : option frames; r_count : nat; r_step : Q; r_inter : option nat }.
  Inductive vres (A : Type) := VOk (a : A) | VFileNotFound (a : A) | VZeroDivision (a : A).
  Arguments VOk {A}. Arguments VFileNotFound {A}. Arguments VZeroDivision {A}.

  (* video_renderer.py:22-38 *)
  Definition new_recorder (existing : option frames) (clear : bool) (step : Q) (inter : option nat) : recorder :=
    mkRec (Some (match existing with
                 | Some d => if clear then [] else d
                 | None => []
                 end)) 0 step inter.
  (* :60-63: the file is written before the counter moves; without the directory saving raises *)
  Definition render_world (w : W) (file : nat) (r : recorder) : vres recorder :=
    match r_dir r with
    | None => VFileNotFound r
    | Some d => VOk (mkRec (Some (save file w d)) (S (r_count r)) (r_step r) (r_inter r))
    end.
  (* :49-55, the loop over the intermediate steps; the file name is the one chosen before the loop *)
  Fixpoint render_steps (k : nat) (dt : Q) (w : W) (t : Q) (file : nat) (r : recorder) : vres recorder :=
    match k with
    | O => VOk r
    | S k' =>
        let w' := at_time w t in
        match render_world w' file r with
        | VOk r' => render_steps k' dt w' (t + dt)%Q file r'
        | e => e
        end
    end.
  (* :40-55 *)
  Definition draw_world (w : W) (r : recorder) : vres recorder :=
    let file := r_count r in
    match r_inter r with
    | None => render_world w file r
    | Some k => render_steps k (r_step r / inject_Z (Z.of_nat k))%Q w (time w) file r
    end.
  Fixpoint draw_worlds (l : list W) (r : recorder) : vres recorder :=
    match l with
    | [] => VOk r
    | w :: l' => match draw_world w r with VOk r' => draw_worlds l' r' | e => e end
    end.
  (* the frames ffmpeg reads *)
  Fixpoint read_frames (fuel n : nat) (d : frames) : list W :=
    match fuel with
    | O => []
    | S f => match frame n d with Some w => w :: read_frames f (S n) d | None => [] end
    end.
  Record video := mkVideo { v_rate : Q; v_frames : list W }.
  (* :68-88; folder: the directory part of the file name, "" if there is none, which os.makedirs refuses; result: the
     video written, if any *)
  Definition export_video (folder : string) (folder_exists remove : bool) (r : recorder) : vres (recorder * option video) :=
    match (match r_inter r with
           | None => if Qeq_bool (r_step r) 0 then None else Some (1 / r_step r)%Q
           | Some O => None
           | Some k => if Qeq_bool (r_step r) 0 then None else Some (1 / (r_step r / inject_Z (Z.of_nat k)))%Q
           end) with
    | None => VZeroDivision (r, None)
    | Some rate =>
        if String.eqb folder "" then VFileNotFound (r, None)
        else
          let frs := match r_dir r with Some d => read_frames (List.length d) 0 d | None => [] end in
          let v := match frs with [] => None | _ => Some (mkVideo rate frs) end in
          if remove then
            match r_dir r with
            | Some _ => VOk (mkRec None (r_count r) (r_step r) (r_inter r), v)
            | None => VFileNotFound (r, v)
            end
          else VOk (r, v)
    end.
End Video.
Arguments VOk {A}. Arguments VFileNotFound {A}. Arguments VZeroDivision {A}.
Arguments mkRec {W}. Arguments r_dir {W}. Arguments r_count {W}. Arguments r_step {W}. Arguments r_inter {W}.
Arguments frame {W}. Arguments save {W}. Arguments new_recorder {W}. Arguments render_world {W}. Arguments read_frames {W}.
Arguments mkVideo {W}. Arguments v_rate {W}. Arguments v_frames {W}. Arguments export_video {W}. Arguments render_steps {W}.
Arguments draw_world {W}. Arguments draw_worlds {W}.
