(* The drawing thread: bark/runtime/viewer/threaded_viewer.py (ThreadedViewer). Two threads over shared lists, one
   bytecode-level access per step: the simulating thread runs a program of drawWorld and reset calls, the drawing thread
   runs run(). The clock is exact (no rounding of 0.03). *)
From Coq Require Import List ZArith QArith Bool Arith.
Import ListNotations.

Section Threaded.
  Variable W : Type.

  (* what the simulating thread does, threaded_viewer.py:37-44 *)
  Inductive call := DrawWorld (w : W) (time : Q) | Reset.
  Inductive access := AppendWorld (w : W) | AppendTime (t : Q) | ClearWorlds | ClearTimes | ZeroRenderTime.
  Definition accesses (c : call) : list access :=
    match c with
    | DrawWorld w t => [AppendWorld w; AppendTime t]
    | Reset => [ClearWorlds; ClearTimes; ZeroRenderTime]
    end.
  Definition program (l : list call) : list access := flat_map accesses l.

  (* where the drawing thread is, :47-56 with :31-35 inlined *)
  Inductive pc :=
  | PCheck                                   (* len(self.world_queue_list) == 0 *)
  | PIter                                    (* enumerate(reversed(times)): the iterator starts at the present length *)
  | PScan (seen pos idx : nat)               (* next element: position pos - 1 *)
  | PLen (seen idx : nat)                    (* len(times) - 1 - idx *)
  | PGet (seen now : nat) (j : Z)            (* self.world_queue_list[j] *)
  | PDraw (seen now : nat) (w : W)           (* GetWorldAtTime(render_time), drawWorld *)
  | PLoad                                    (* render_time + 0.03 ... *)
  | PStore (r : Q)                           (* ... stored *)
  | PCrash.                                  (* the thread ended with an exception *)
  (* a picture drawn: the world taken from the list, the render time; and, for the statements only, the number of times
     in the list when the search for it began and when its index was computed *)
  Record picture := mkPic { p_world : W; p_time : Q; p_seen : nat; p_now : nat }.
  Record tstate := mkT { t_worlds : list W; t_times : list Q; t_render : Q; t_todo : list access; t_pc : pc; t_drawn : list picture }.
  Definition render_step : Q := 3 # 100.

  Definition simulate (s : tstate) : tstate :=
    match t_todo s with
    | [] => s
    | a :: r =>
        match a with
        | AppendWorld w => mkT (t_worlds s ++ [w]) (t_times s) (t_render s) r (t_pc s) (t_drawn s)
        | AppendTime t => mkT (t_worlds s) (t_times s ++ [t]) (t_render s) r (t_pc s) (t_drawn s)
        | ClearWorlds => mkT [] (t_times s) (t_render s) r (t_pc s) (t_drawn s)
        | ClearTimes => mkT (t_worlds s) [] (t_render s) r (t_pc s) (t_drawn s)
        | ZeroRenderTime => mkT (t_worlds s) (t_times s) 0 r (t_pc s) (t_drawn s)
        end
    end.
  Definition goto (s : tstate) (p : pc) : tstate := mkT (t_worlds s) (t_times s) (t_render s) (t_todo s) p (t_drawn s).
  (* Python's list index: negative counts from the end *)
  Definition at_index {A} (l : list A) (j : Z) : option A :=
    if Z.leb 0 j then nth_error l (Z.to_nat j)
    else if Z.leb (- Z.of_nat (length l)) j then nth_error l (Z.to_nat (Z.of_nat (length l) + j)) else None.
  Definition draw (s : tstate) : tstate :=
    match t_pc s with
    | PCheck => match t_worlds s with [] => s | _ => goto s PIter end
    | PIter => goto s (PScan (length (t_times s)) (length (t_times s)) 0)
    | PScan seen pos idx =>
        match pos with
        | O => goto s PCrash                     (* no world found: None as an index, TypeError *)
        | S p => match nth_error (t_times s) p with
                 | None => goto s PCrash         (* the list was cleared: the iterator ends *)
                 | Some t => if Qle_bool t (t_render s) then goto s (PLen seen idx) else goto s (PScan seen p (S idx))
                 end
        end
    | PLen seen idx => goto s (PGet seen (length (t_times s)) (Z.of_nat (length (t_times s)) - 1 - Z.of_nat idx))
    | PGet seen now j => match at_index (t_worlds s) j with Some w => goto s (PDraw seen now w) | None => goto s PCrash end
    | PDraw seen now w => mkT (t_worlds s) (t_times s) (t_render s) (t_todo s) PLoad (t_drawn s ++ [mkPic w (t_render s) seen now])
    | PLoad => goto s (PStore (t_render s + render_step))
    | PStore r => mkT (t_worlds s) (t_times s) r (t_todo s) PCheck (t_drawn s)
    | PCrash => s
    end.
  (* a schedule: which thread moves next *)
  Inductive thread := Simulating | Drawing.
  Definition move (s : tstate) (t : thread) : tstate := match t with Simulating => simulate s | Drawing => draw s end.
  Definition run (s : tstate) (sched : list thread) : tstate := fold_left move sched s.
  (* the thread is started after the calls `before`, while `after` is still to come; :20-28 *)
  Definition start (before after : list call) : tstate :=
    run (mkT [] [] 0 (program before ++ program after) PCheck []) (repeat Simulating (length (program before))).
End Threaded.
Arguments DrawWorld {W}. Arguments Reset {W}. Arguments AppendWorld {W}. Arguments AppendTime {W}. Arguments ClearWorlds {W}.
Arguments ClearTimes {W}. Arguments ZeroRenderTime {W}. Arguments PCheck {W}. Arguments PIter {W}. Arguments PScan {W}.
Arguments PLen {W}. Arguments PGet {W}. Arguments PDraw {W}. Arguments PLoad {W}. Arguments PStore {W}. Arguments PCrash {W}.
Arguments mkPic {W}. Arguments p_world {W}. Arguments p_time {W}. Arguments p_seen {W}. Arguments p_now {W}.
Arguments mkT {W}. Arguments t_worlds {W}. Arguments t_times {W}. Arguments t_render {W}. Arguments t_todo {W}. Arguments t_pc {W}.
Arguments t_drawn {W}. Arguments start {W}. Arguments run {W}. Arguments program {W}. Arguments draw {W}. Arguments simulate {W}.
Arguments goto {W}. Arguments move {W}. Arguments accesses {W}.
