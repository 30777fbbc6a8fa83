(** Benchmark results on disk and the benchmark runner
    (/repo/bark/benchmark/benchmark_result.py, benchmark_runner.py,
    benchmark_runner_mp.py).

    The file system is a map from paths to archives.  Every operation of the
    code that changes it is one step and is recorded, so that the crash states
    of a program are exactly the recorded ones.  While a zip archive is open
    for writing the file on disk has no valid central directory: it is
    [Corrupt] until the archive is closed.

    Simplifications.  A result row (a Python dict) is its "config_idx" entry
    plus an opaque rest.  The checkpoint directory is flat: it holds the merged
    file, checkpoint files and their tmp_ companions, nothing else ending in
    .ckpnt, and its own path does not contain "merged_result".  The name of an
    archive member "configs/configs_config_idx_1,2,3" is the pair of its kind
    and its index list.  The size in bytes of a pickle, which determines how
    many members a dump is split into, is the oracle [nfiles].  *)

From Coq Require Import List Arith Lia Bool.
Import ListNotations.

Section Benchmark.

Context {C D H : Type}.

(** benchmark_result.py 38-48: a configuration to run; only its index matters
    to the runner's bookkeeping. *)
Record conf := { c_idx : nat; c_data : C }.

(** benchmark_runner.py 351-355: a result row. *)
Record row := { r_idx : nat; r_data : D }.

(** benchmark_result.py 233-234: member name inside the archive. *)
Inductive kind := Configs | Histories.
Inductive item := ItC (c : conf) | ItH (h : H).
Definition member : Type := kind * list (nat * item).

Definition kind_eqb (a b : kind) : bool :=
  match a, b with
  | Configs, Configs | Histories, Histories => true
  | _, _ => false
  end.

(** "configs_config_idx_" followed by the joined keys (result.py 232-234). *)
Definition m_name (m : member) : kind * list nat := (fst m, map fst (snd m)).

Definition name_eqb (a b : kind * list nat) : bool :=
  kind_eqb (fst a) (fst b) && (if list_eq_dec Nat.eq_dec (snd a) (snd b) then true else false).

(** A zip archive: its "benchmark.results" member, if any, and the others. *)
Record zip := { z_res : option (list row); z_mem : list member }.

Inductive file := Corrupt | Zip (z : zip).

(** Files matching **/*.ckpnt (runner.py 196-216, 277-278): merged_results,
    "<name>.ckpnt" and "tmp_<name>.ckpnt"; name 0 is benchmark_runner, name
    S i is benchmark_runner_actor<i> (mp.py 61-62). *)
Inductive path := PMerged | PCkpt (n : nat) | PTmp (n : nat).

Definition path_eqb (a b : path) : bool :=
  match a, b with
  | PMerged, PMerged => true
  | PCkpt n, PCkpt m | PTmp n, PTmp m => n =? m
  | _, _ => false
  end.

Definition fs := path -> option file.

Definition upd (f : fs) (p : path) (x : option file) : fs :=
  fun q => if path_eqb p q then x else f q.

(** Python exceptions. *)
Inductive exn :=
  | ValueError | KeyError | AttributeError | TypeError | FileNotFoundError
  | ZeroDivisionError | BadZipFile | ConfigError.

(** Programs: the recorded states, the last state, a value or an exception. *)
Definition M (A : Type) : Type := fs -> list fs * fs * (A + exn).

Definition ret {A} (a : A) : M A := fun f => ([], f, inl a).
Definition raise {A} (e : exn) : M A := fun f => ([], f, inr e).
Definition get : M fs := fun f => ([], f, inl f).
Definition step (g : fs -> fs) : M unit := fun f => ([g f], g f, inl tt).
Definition bind {A B} (m : M A) (k : A -> M B) : M B :=
  fun f =>
    match m f with
    | (t, f', inr e) => (t, f', inr e)
    | (t, f', inl a) =>
        match k a f' with (t', f'', r) => (t ++ t', f'', r) end
    end.

(* BenchmarkResult, benchmark_result.py 69-78 *)
Record bres := {
  b_dicts : list row;            (* __result_dict *)
  b_df : option (list row);      (* __data_frame, None when not a DataFrame *)
  b_confs : list conf;           (* __benchmark_configs *)
  b_hist : list (nat * H);       (* __histories *)
  b_file : option path           (* __file_name *)
}.

(** benchmark_result.py 80-84 (value only; the cache is [touch]). *)
Definition get_data_frame (b : bres) : list row :=
  match b_df b with
  | Some d => if length d <? length (b_dicts b) then b_dicts b else d
  | None => b_dicts b
  end.

(** benchmark_result.py 80-84: get_data_frame stores what it returns. *)
Definition touch (b : bres) : bres :=
  {| b_dicts := b_dicts b; b_df := Some (get_data_frame b);
     b_confs := b_confs b; b_hist := b_hist b; b_file := b_file b |}.

(** benchmark_result.py 86-89. *)
Definition get_result_dict (b : bres) : list row :=
  match b_dicts b, b_df b with
  | [], Some d => d
  | ds, _ => ds
  end.

(** benchmark_result.py 101-108. *)
Definition get_indices (b : bres) : list nat :=
  match get_data_frame b with
  | [] => map c_idx (b_confs b)
  | d => map r_idx d
  end.

(** benchmark_result.py 110-117. *)
Fixpoint find_hist (l : list (nat * H)) (i : nat) : option H :=
  match l with
  | [] => None
  | (j, h) :: r => if j =? i then Some h else find_hist r i
  end.

(* ------------------------------------------------------------------ *)
(* Python dicts keyed by config index *)

(** d[k] = v on an insertion-ordered dict. *)
Fixpoint dict_set {V} (d : list (nat * V)) (k : nat) (v : V) : list (nat * V) :=
  match d with
  | [] => [(k, v)]
  | (j, w) :: r => if j =? k then (k, v) :: r else (j, w) :: dict_set r k v
  end.

(** A dict read through its sorted key list (result.py 224-230). *)
Fixpoint sorted_set {V} (d : list (nat * V)) (k : nat) (v : V) : list (nat * V) :=
  match d with
  | [] => [(k, v)]
  | (j, w) :: r =>
      if k <? j then (k, v) :: d
      else if j =? k then (k, v) :: r
      else (j, w) :: sorted_set r k v
  end.

Definition sorted_dict {V} (l : list (nat * V)) : list (nat * V) :=
  fold_left (fun d kv => sorted_set d (fst kv) (snd kv)) l [].

(** [l[i:i+n] for i in range(0, len(l), n)] for n > 0 (result.py 226-227). *)
Fixpoint chunks_fuel {A} (fuel n : nat) (l : list A) : list (list A) :=
  match fuel, l with
  | 0, _ | _, [] => []
  | S fuel', _ => firstn n l :: chunks_fuel fuel' n (skipn n l)
  end.
Definition chunks {A} (n : nat) (l : list A) : list (list A) := chunks_fuel (length l) n l.

(** math.ceil(whole_list_byte_size/max_bytes_per_file) (result.py 214-216) *)
Variable nfiles : kind -> list (nat * item) -> nat.

(** benchmark_result.py 212-237 ([_save_and_split]): the members to write, or
    the exception: division by zero files, or a range step of 0 when there are
    more files than entries. *)
Definition split (k : kind) (l : list (nat * item)) : list member + exn :=
  match nfiles k l with
  | 0 => inr ZeroDivisionError
  | nf => match length l / nf with
          | 0 => inr ValueError
          | n => inl (map (fun c => (k, c)) (chunks n (sorted_dict l)))
          end
  end.

(** result.py 235-237: a member whose name is present is not written again. *)
Definition add_member (ms : list member) (m : member) : list member :=
  if existsb (fun m' => name_eqb (m_name m') (m_name m)) ms then ms else ms ++ [m].

Definition add_members (ms new : list member) : list member := fold_left add_member new ms.

Definition conf_items (l : list conf) : list (nat * item) := map (fun c => (c_idx c, ItC c)) l.
Definition hist_items (l : list (nat * H)) : list (nat * item) :=
  map (fun kh => (fst kh, ItH (snd kh))) l.

(** The members written by _dump_benchmark_configs and _dump_histories
    (result.py 255-265): the accumulated list and the exception, if one. *)
Definition dump_kind (on : bool) (k : kind) (l : list (nat * item)) (ms : list member)
  : list member * option exn :=
  match on, l with
  | false, _ | _, [] => (ms, None)
  | true, _ =>
      match split k l with
      | inl new => (add_members ms new, None)
      | inr e => (ms, Some e)
      end
  end.

(** benchmark_result.py 239-248: "zip -d" replaces the archive; an archive that
    becomes empty is removed. *)
Definition remove_results (p : option path) : M unit :=
  match p with
  | None => ret tt
  | Some p =>
      bind get (fun f =>
        match f p with
        | None => ret tt
        | Some Corrupt => raise BadZipFile
        | Some (Zip z) =>
            match z_res z with
            | None => ret tt
            | Some _ =>
                step (fun f => upd f p
                  (match z_mem z with
                   | [] => None
                   | ms => Some (Zip {| z_res := None; z_mem := ms |})
                   end))
            end
        end)
  end.

(** Writing an archive: corrupt until closed. *)
Definition write_zip (p : path) (z : zip) : M unit :=
  bind (step (fun f => upd f p (Some Corrupt)))
       (fun _ => step (fun f => upd f p (Some (Zip z)))).

(** benchmark_result.py 278-293 (dump).  [with] closes the archive also when a
    split raises, so what was written before stays. *)
Definition dump (b : bres) (p : path) (dc dh append : bool) : M bres :=
  bind get (fun f =>
  bind (match b_file b with
        | Some q =>
            if negb (path_eqb q p) && (match f q with Some _ => true | None => false end)
            then bind (step (fun f => upd (upd f p (f q)) q None)) (fun _ => ret true)
            else ret append
        | None => ret append
        end) (fun append =>
  bind (if append then remove_results (Some p) else ret tt) (fun _ =>
  bind get (fun f =>
  bind (match append, f p with
        | true, Some (Zip z) => ret (z_mem z)
        | true, Some Corrupt => raise BadZipFile
        | _, _ => ret []
        end) (fun base =>
  let '(m1, e1) := dump_kind dc Configs (conf_items (b_confs b)) base in
  let '(m2, e2) := match e1 with
                   | None => dump_kind dh Histories (hist_items (b_hist b)) m1
                   | Some e => (m1, Some e)
                   end in
  bind (write_zip p {| z_res := Some (get_data_frame b); z_mem := m2 |}) (fun _ =>
  match e2 with
  | Some e => raise e
  | None => ret {| b_dicts := b_dicts b; b_df := Some (get_data_frame b);
                   b_confs := b_confs b; b_hist := b_hist b; b_file := Some p |}
  end)))))).

(** benchmark_result.py 296-307 (move_files): the archive after the loop and
    whether it raised. *)
Fixpoint move_loop (from : list member) (existing acc : list member) : list member * bool :=
  match from with
  | [] => (acc, false)
  | m :: r =>
      if existsb (fun m' => name_eqb (m_name m') (m_name m)) existing then (acc, true)
      else move_loop r existing (acc ++ [m])
  end.

Definition of_kind (k : kind) (ms : list member) : list member :=
  filter (fun m => kind_eqb (fst m) k) ms.

Definition move_files (k : kind) (from to : list member) : list member * bool :=
  move_loop (of_kind k from) (of_kind k to) to.

Definition overlapb (a b : list nat) : bool :=
  existsb (fun i => existsb (Nat.eqb i) b) a.

(** benchmark_result.py 309-347 (extend).  The caches of [other] filled by the
    getters do not change what its getters return and are not recorded. *)
Definition extend (self other : bres) (file_level : bool) : M bres :=
  match get_indices other with
  | [] => ret self
  | new =>
      if overlapb new (get_indices self) then raise ValueError
      else
        let self1 := {| b_dicts := b_dicts self ++ get_result_dict (touch other);
                        b_df := Some (get_data_frame self ++ get_data_frame other);
                        b_confs := if file_level then b_confs self
                                   else b_confs self ++ b_confs other;
                        b_hist := if file_level then b_hist self
                                  else fold_left (fun d kh => dict_set d (fst kh) (snd kh))
                                                 (b_hist other) (b_hist self);
                        b_file := b_file self |} in
        if file_level then
          bind (remove_results (b_file self)) (fun _ =>
          match b_file self with
          | None => raise TypeError
          | Some p =>
              bind (dump self1 p true true true) (fun self2 =>
              match b_file other with
              | None => raise TypeError
              | Some q =>
                  bind get (fun f =>
                  match f q with
                  | None => raise ValueError
                  | Some Corrupt => raise BadZipFile
                  | Some (Zip zq) =>
                      match f p with
                      | Some (Zip zp) =>
                          let '(m1, e1) := move_files Configs (z_mem zq) (z_mem zp) in
                          let '(m2, e2) := if e1 then (m1, true)
                                           else move_files Histories (z_mem zq) m1 in
                          bind (write_zip p {| z_res := z_res zp; z_mem := m2 |}) (fun _ =>
                          if e2 then raise ValueError else ret self2)
                      | _ => raise BadZipFile
                      end
                  end)
              end)
          end)
        else ret self1
  end.

(** benchmark_result.py 267-276 (load_results). *)
Definition load_results (p : path) : M (option bres) :=
  bind get (fun f =>
    match f p with
    | None => raise FileNotFoundError
    | Some Corrupt => ret None
    | Some (Zip z) =>
        match z_res z with
        | None => raise KeyError
        | Some d => ret (Some {| b_dicts := []; b_df := Some d; b_confs := [];
                                 b_hist := []; b_file := Some p |})
        end
    end).

(** BenchmarkResult(file_name=p) *)
Definition fresh_result (p : path) : bres :=
  {| b_dicts := []; b_df := None; b_confs := []; b_hist := []; b_file := Some p |}.

(** benchmark_runner.py 206-209 *)
Fixpoint merge_loop (g : list path) (merged : option bres) : M (option bres) :=
  match g with
  | [] => ret merged
  | p :: r =>
      bind (load_results p) (fun loaded =>
      match merged, loaded with
      | Some m, Some l => bind (extend m l true) (fun m' => merge_loop r (Some m'))
      | _, _ => raise AttributeError
      end)
  end.

(** benchmark_runner.py 211-216 *)
Fixpoint delete_loop (g : list path) : M unit :=
  match g with
  | [] => ret tt
  | PMerged :: r => delete_loop r
  | p :: r => bind (step (fun f => upd f p None)) (fun _ => delete_loop r)
  end.

(** benchmark_runner.py 196-217.  [g] is the list glob returned. *)
Definition merge_checkpoints (g : list path) : M (option bres) :=
  bind get (fun f =>
  bind (match f PMerged with
        | Some _ => load_results PMerged
        | None => ret (Some (fresh_result PMerged))
        end) (fun merged =>
  bind (merge_loop g merged) (fun merged =>
  bind (delete_loop g) (fun _ => ret merged)))).

(** What glob may return: every existing file, each once, in any order. *)
Definition glob_of (f : fs) (g : list path) : Prop :=
  NoDup g /\ forall p, In p g <-> f p <> None.

(** benchmark_runner.py 219-226 *)
Definition configs_to_run (cs : list conf) (existing : bres) : list conf :=
  filter (fun c => negb (existsb (Nat.eqb (c_idx c)) (get_indices existing))) cs.

(** Running one configuration (benchmark_runner.py 320-357): a row and the
    scenario history, or an exception that leaves [run]; Model_BenchRun gives
    this function for the code. *)
Variable exec : conf -> option (row * H).

(** benchmark_runner.py 294: checkpoint_every and (idx+1) % checkpoint_every == 0 *)
Definition due (every : option nat) (n : nat) : bool :=
  match every with
  | None | Some 0 => false
  | Some k => n mod k =? 0
  end.

(** benchmark_runner.py 296-299, 305-308: dump the pending results to the tmp
    file and extend the checkpoint with it. *)
Definition flush (name : nat) (history : bool) (rows : list row) (hist : list (nat * H))
    (cs : list conf) (ck : bres) : M bres :=
  bind (dump {| b_dicts := rows; b_df := None; b_confs := cs; b_hist := hist;
                b_file := Some (PTmp name) |} (PTmp name) true history false)
       (fun last => extend ck last true).

(** benchmark_runner.py 280-303 *)
Fixpoint run_loop (name : nat) (history : bool) (every : option nat) (cs : list conf)
    (idx : nat) (rows : list row) (hist : list (nat * H)) (done : list conf) (ck : bres)
  : M (list row * list (nat * H) * list conf * bres) :=
  match cs with
  | [] => ret (rows, hist, done, ck)
  | c :: r =>
      match exec c with
      | None => raise ConfigError
      | Some (rw, h) =>
          let rows := rows ++ [rw] in
          let hist := dict_set hist (c_idx c) h in
          let done := done ++ [c] in
          if due every (S idx)
          then bind (flush name history rows hist done ck)
                    (fun ck => run_loop name history every r (S idx) [] [] [] ck)
          else run_loop name history every r (S idx) rows hist done ck
      end
  end.

(** benchmark_runner.py 272-312 (run). *)
Definition run (name : nat) (history : bool) (every : option nat) (cs : list conf)
    (existing : bres) : M bres :=
  bind (run_loop name history every cs 0 [] [] [] (fresh_result (PCkpt name)))
    (fun '(rows, hist, done, ck) =>
  bind (flush name history rows hist done ck) (fun ck =>
  bind (step (fun f => upd f (PTmp name) None)) (fun _ =>
  extend ck existing true))).

(** benchmark_runner.py 166-189 (merge_existing): the runner that continues. *)
Definition resume (g : list path) (name : nat) (history : bool) (every : option nat)
    (cs : list conf) : M bres :=
  bind (merge_checkpoints g) (fun merged =>
  match merged with
  | None => raise AttributeError
  | Some ex => run name history every (configs_to_run cs ex) ex
  end).

(** benchmark_runner_mp.py 115-116: configs_to_run[i::n]. *)
Fixpoint every_nth {A} (n skip : nat) (l : list A) : list A :=
  match l with
  | [] => []
  | x :: r => match skip with
              | 0 => x :: every_nth n (pred n) r
              | S s => every_nth n s r
              end
  end.

Definition actor_split (n : nat) (cs : list conf) : list (list conf) :=
  map (fun i => every_nth n i cs) (seq 0 n).

(** benchmark_runner_mp.py 130-140: the actors' runs, then the extension of a
    fresh result with each of theirs and with the existing one.  The actors run
    in parallel on files of their own; here one after the other. *)
Fixpoint run_actors (i : nat) (history : bool) (every : option nat) (parts : list (list conf))
  : M (list bres) :=
  match parts with
  | [] => ret []
  | cs :: r =>
      bind (run (S i) history every cs (fresh_result PMerged)) (fun b =>
      bind (run_actors (S i) history every r) (fun bs => ret (b :: bs)))
  end.

Fixpoint extend_all (self : bres) (bs : list bres) : M bres :=
  match bs with
  | [] => ret self
  | b :: r => bind (extend self b true) (fun self' => extend_all self' r)
  end.

Definition run_mp (n : nat) (history : bool) (every : option nat) (cs : list conf)
    (existing : bres) : M bres :=
  bind (run_actors 0 history every (actor_split n cs)) (fun bs =>
  bind (extend_all (fresh_result (PCkpt 0)) bs) (fun b =>
  extend b existing true)).

(** The states in which a program can be interrupted. *)
Definition crash_states {A} (m : M A) (f : fs) : list fs := f :: fst (fst (m f)).
Definition final_fs {A} (m : M A) (f : fs) : fs := snd (fst (m f)).
Definition outcome_of {A} (m : M A) (f : fs) : A + exn := snd (m f).

End Benchmark.

Arguments conf : clear implicits.
Arguments row : clear implicits.
Arguments member : clear implicits.
Arguments item : clear implicits.
Arguments zip : clear implicits.
Arguments file : clear implicits.
Arguments fs : clear implicits.
Arguments bres : clear implicits.
Arguments M : clear implicits.
