(** Scenarios from recorded tracks: the moving window reader
    (config_readers/agent_state_geometry_config_readers.py 152-301), the dataset
    decomposer (interaction_dataset_processing/) and the generator
    interaction_dataset_scenario_generation_full.py, all under
    /repo/bark/runtime/scenario/.

    Times are integers (milliseconds).  A track has an identifier, first and last
    time stamp, its motion states by time (a dict in file order), type and length.
    Geometry (which lanes a shape touches, whether it lies in the road corridor, is
    aligned with the road) is opaque. *)

From Coq Require Import String List Arith Lia Bool QArith ZArith.
Import ListNotations.
From Verif Require Import Model_Intersection Model_ScenGen.
Local Open Scope string_scope.
Local Open Scope Z_scope.
Local Open Scope list_scope.

Section Dataset.
Context {MS : Type}.      (* a motion state: x, y, psi, vx, vy *)

Record track := mkTrack {
  t_id : Z; t_first : Z; t_last : Z; t_states : list (Z * MS); t_type : string; t_length : Q
}.

Definition lookup_state (l : list (Z * MS)) (t : Z) : option MS :=
  match find (fun x => fst x =? t) l with Some x => Some (snd x) | None => None end.

(** min(track.motion_states); ValueError for a track without states *)
Fixpoint min_key (l : list (Z * MS)) : option Z :=
  match l with
  | [] => None
  | (t, _) :: r => match min_key r with Some m => Some (Z.min t m) | None => Some t end
  end.

(** interaction_dataset_reader.py 73-80 InitStateFromTrack: the recorded time used and
    the motion state; None: KeyError (no state at that time) or ValueError. *)
Definition init_state (tr : track) (start : Z) : option (Z * MS) :=
  match min_key (t_states tr) with
  | None => None
  | Some m => let s := if start <? m then m else start in
              match lookup_state (t_states tr) s with Some x => Some (s, x) | None => None end
  end.

(** interaction_dataset_reader.py 41-53 TrajectoryFromTrack: time relative to [start]
    and motion state of every recorded state within [start, end]. *)
Definition trajectory (tr : track) (start end_ : Z) : list (Z * MS) :=
  map (fun x => (fst x - start, snd x))
      (filter (fun x => (start <=? fst x) && (fst x <=? end_)) (t_states tr)).

(* ------------------------------------------------------------------ *)
(** * The moving window *)

Variable lanes_at : MS -> list nat.   (* 296-301 find_lane_positions of the shape at the state *)
Variable inside : MS -> bool.         (* 259 Within(shape, road_corridor.polygon) *)

Section Window.
Variables (only_one : bool) (mins : list nat) (len skip max_time : Z).

(** 280-286 find_track_ids *)
Definition covering (d : list track) (ws : Z) : list track :=
  filter (fun tr => (ws + len <=? t_last tr) && (t_first tr <=? ws)) d.

(** 250-261: the lane an accepted track is counted for; outer None: the state lookup raised *)
Definition lane_of (tr : track) (ws : Z) : option (option nat) :=
  match init_state tr ws with
  | None => None
  | Some (_, ms) =>
      let lps := lanes_at ms in
      if only_one && negb (length lps =? 1)%nat then Some None
      else match lps with
           | [] => Some None
           | p :: _ => if inside ms then Some (Some p) else Some None
           end
  end.

Fixpoint lanes_of (l : list track) (ws : Z) : option (list (nat * Z)) :=
  match l with
  | [] => Some []
  | tr :: r => match lane_of tr ws with
               | None => None
               | Some o => match lanes_of r ws with
                           | None => None
                           | Some x => Some (match o with Some p => (p, t_id tr) :: x | None => x end)
                           end
               end
  end.

(** numbers_per_lane[lane] *)
Definition on_lane (p : nat) (x : list (nat * Z)) : list Z :=
  map snd (filter (fun y => (fst y =? p)%nat) x).

(** 263-271: None if some lane has too few *)
Fixpoint gather (p : nat) (ms : list nat) (x : list (nat * Z)) : option (list Z) :=
  match ms with
  | [] => Some []
  | m :: r => if (length (on_lane p x) <? m)%nat then None
              else match gather (S p) r x with Some y => Some (on_lane p x ++ y) | None => None end
  end.

(** 234-276 find_track_ids_moving_window from [ws]: the ids and the start of the window
    reached (its end is [len] later). *)
Fixpoint search (fuel : nat) (d : list track) (ws : Z) : outcome (list Z * Z) :=
  match fuel with
  | O => OutOfFuel
  | S n =>
      let ws' := ws + skip in
      if max_time <? ws' + len then Done ([], ws')
      else match covering d ws' with
           | [] => search n d ws'
           | c => match lanes_of c ws' with
                  | None => Crash
                  | Some x => match gather 0 mins x with
                              | Some ids => Done (ids, ws')
                              | None => search n d ws'
                              end
                  end
           end
  end.
End Window.

(** Class variables of the reader, 153-156 *)
Record wstate := mkW { w_start : Z; w_files : list (list track); w_cur : nat }.

(** 186-194: the files from the current one on *)
Fixpoint search_files (fuel : nat) (one : bool) (mins : list nat) (len skip max_time min_time : Z)
    (files : list (list track)) (cur : nat) (ws : Z) : outcome (option (list Z * Z * nat)) :=
  match files with
  | [] => Done None
  | d :: r =>
      match search one mins len skip max_time fuel d ws with
      | Crash => Crash
      | OutOfFuel => OutOfFuel
      | Done ([], _) => search_files fuel one mins len skip max_time min_time r (S cur) min_time
      | Done (ids, w) => Done (Some (ids, w, cur))
      end
  end.

(** 157-221 create_from_config, reduced to which tracks at which window of which file.
    Crash: an exception (line 196, KeyError, or the class variables are still None). *)
Definition window_reader (fuel : nat) (one : bool) (mins : list nat) (len skip_scen skip max_time min_time : Z)
    (load : list (list track)) (idx : nat) (st : option wstate) : outcome (list Z * wstate) :=
  match (match idx with
         | O => Some (mkW min_time load 0)
         | S _ => match st with Some s => Some (mkW (w_start s + skip_scen) (w_files s) (w_cur s)) | None => None end
         end) with
  | None => Crash
  | Some s =>
      match search_files fuel one mins len skip max_time min_time (skipn (w_cur s) (w_files s)) (w_cur s) (w_start s) with
      | Crash => Crash
      | OutOfFuel => OutOfFuel
      | Done None => Crash
      | Done (Some (ids, w, cur)) => Done (ids, mkW w (w_files s) cur)
      end
  end.

(* ------------------------------------------------------------------ *)
(** * Decomposing a data set *)

(** Python round(x, -2) of an integer: to hundreds, ties to even *)
Definition round100 (z : Z) : Z :=
  let q := z / 100 in let r := z mod 100 in
  if r <? 50 then 100 * q else if 50 <? r then 100 * (q + 1)
  else if Z.even q then 100 * q else 100 * (q + 1).

(** agent_track_info.py 8-12 *)
Record info := mkInfo { i_id : Z; i_start : Z; i_end : Z }.
Definition make_info (id s e : Z) : info := mkInfo id (round100 s) (round100 e).

Variable on_road : MS -> bool.        (* dataset_decomposer.py 39-45: inside the road and aligned with some lane *)
Variables (offset : Z) (max_length : Q).

(** dataset_decomposer.py 32-51 (TrajectoryFromTrack with start 0 and the last state as end).
    Simplified: seconds and back to milliseconds is exact; a track without states, for
    which states[-1] would raise, is skipped. *)
Definition first_ts (tr : track) : option Z :=
  match rev (t_states tr) with
  | [] => None
  | (e, _) :: _ => match find (fun x => on_road (snd x)) (trajectory tr 0 e) with
                   | Some (t, _) => Some (t + offset)
                   | None => None
                   end
  end.

(** 53-75; one entry per usable track, in file order (track ids are dict keys) *)
Definition track_info (tr : track) : list info :=
  match first_ts tr with
  | None => []
  | Some t => if negb (String.eqb (t_type tr) "car") then []
              else if negb (Qle_bool (t_length tr) max_length) then []
              else [make_info (t_id tr) t (t_last tr)]
  end.
Definition track_infos (d : list track) : list info := flat_map track_info d.

(** 83-101 *)
Definition others_of (l : list info) (ego : info) : list info :=
  filter (fun o => negb (i_id ego =? i_id o) && negb (i_end o <=? i_start ego) && negb (i_end ego <=? i_start o)) l.

(** scenario_track_info.py 8-23, 32-36.  None: ValueError. *)
Record sinfo := mkSInfo { s_start : Z; s_end : Z; s_ego : info; s_others : list info }.
Definition make_sinfo (ego : info) (others : list info) : option sinfo :=
  let s := round100 (i_start ego) in let e := round100 (i_end ego) in
  if existsb (fun o => e <? i_start o) others then None else Some (mkSInfo s e ego others).

(** 103-122 *)
Fixpoint decompose_with (all l : list info) : option (list sinfo) :=
  match l with
  | [] => Some []
  | e :: r => match make_sinfo e (others_of all e) with
              | None => None
              | Some s => match decompose_with all r with Some x => Some (s :: x) | None => None end
              end
  end.
Definition decompose (d : list track) : option (list sinfo) :=
  let l := track_infos d in decompose_with l l.

(** scenario_track_info.py 68-76 TimeSanityCheck *)
Definition sane (s : sinfo) : bool := negb (s_start s <? i_start (s_ego s)) && negb (i_end (s_ego s) <? s_end s).

(** An agent of the scenario: identifier, initial state (recorded time, motion state),
    the recorded trajectory it replays (None: another behavior model), and the time at
    which it becomes valid (milliseconds after the scenario start). *)
Record dagent := mkDAgent { d_id : Z; d_init : Z * MS; d_traj : option (list (Z * MS)); d_valid : Z }.

(** interaction_dataset_reader.py 128-212 AgentFromTrackfile and
    interaction_dataset_scenario_generation_full.py 126-150; None: ValueError. *)
Definition make_agent (d : list track) (s : sinfo) (model : bool) (i : info) (is_ego : bool) : option dagent :=
  match find (fun tr => t_id tr =? i_id i) d with
  | None => None
  | Some tr =>
      let t0 := if is_ego then s_start s else Z.max (i_start i) (s_start s) in
      match init_state tr t0 with
      | None => None
      | Some x => Some (mkDAgent (i_id i) x
                          (if model && negb is_ego then None else Some (trajectory tr (s_start s) (s_end s)))
                          (if is_ego then 0 else i_start i - s_start s))
      end
  end.

Fixpoint make_agents (d : list track) (s : sinfo) (model : bool) (l : list info) : option (list dagent) :=
  match l with
  | [] => match make_agent d s model (s_ego s) true with Some a => Some [a] | None => None end
  | o :: r => match make_agent d s model o false with
              | None => None
              | Some a => match make_agents d s model r with Some x => Some (a :: x) | None => None end
              end
  end.

(** 107-156 __create_single_scenario__ *)
Record dscen := mkDScen { ds_agents : list dagent; ds_eval : list Z; ds_info : sinfo }.
Definition single (d : list track) (model : bool) (s : sinfo) : option dscen :=
  if sane s then
    match make_agents d s model (s_others s) with
    | Some l => Some (mkDScen l [i_id (s_ego s)] s)
    | None => None
    end
  else None.

(** 93-104: the scenarios of one file *)
Fixpoint from_file (d : list track) (model : bool) (excluded : list Z) (num : nat) (i : nat) (l : list sinfo)
    : option (list dscen) :=
  match l with
  | [] => Some []
  | s :: r =>
      if (i <? num)%nat && negb (existsb (Z.eqb (i_id (s_ego s))) excluded) then
        match single d model s with
        | None => None
        | Some sc => match from_file d model excluded num (S i) r with Some x => Some (sc :: x) | None => None end
        end
      else Some []
  end.

(** 72-105 create_scenarios; None: an exception leaves the constructor *)
Fixpoint create_full (files : list (list track)) (model : bool) (excluded : list Z) (num : nat) : option (list dscen) :=
  match files with
  | [] => Some []
  | d :: r =>
      match decompose d with
      | None => None
      | Some l => match from_file d model excluded num 0 l with
                  | None => None
                  | Some x => match create_full r model excluded num with Some y => Some (x ++ y) | None => None end
                  end
      end
  end.

End Dataset.
Arguments track : clear implicits.
Arguments wstate : clear implicits.

(** interaction_dataset_scenario_generation.py 70-102: ids of the replayed agents: the
    dict of TrackIds, then the ego. *)
Fixpoint dedup (seen l : list Z) : list Z :=
  match l with
  | [] => []
  | x :: r => if existsb (Z.eqb x) seen then dedup seen r else x :: dedup (x :: seen) r
  end.
Definition replay_ids (track_ids : list Z) (ego : Z) : list Z := dedup [] track_ids ++ [ego].
(** 74-75 with agent_track_info.py 12: EndTs may be None; round(None) raises TypeError *)
Definition replay_info (id start : Z) (end_ : option Z) : gres info :=
  match end_ with None => inr TypeError | Some e => inl (make_info id start e) end.
