(** The config readers that make behaviour, execution and dynamic models for the agents of a source
    (/repo/bark/runtime/scenario/scenario_generation/config_readers/behavior_model_config_readers.py,
    execution_model_config_readers.py, dynamic_model_config_readers.py), on the heap of
    parameter servers of Model_PyParams.

    A model class is known by the parameters its constructor reads, in order, with their
    defaults ([classes]; None: eval raises NameError).  Simplifications: a constructor does
    nothing with its server but these typed reads (which is what the C++ constructors do); that
    pybind rejects a value of the wrong type is not modelled; AttributeError (AddChild of
    something that is no server) is written TypeError.  randint(0, n) is the next number of
    a stream [draw], which raises for n = 0. *)

From Coq Require Import String Ascii List Arith Lia Bool QArith ZArith.
Import ListNotations.
From Verif Require Import Model_BenchRun Model_Params Model_PyParams Model_ScenGen.
Local Open Scope string_scope.
Local Open Scope nat_scope.
Local Open Scope list_scope.

(** A model object: its class, the server it was given, the values it read. *)
Record built := mkBuilt { b_type : string; b_server : loc; b_vals : list pv }.

Section Readers.
Variable classes : string -> option (list (string * json)).

(** The typed reads of a constructor, e.g. bark/models/behavior/idm/base_idm.cpp 37-90 *)
Fixpoint read_all (h : heap) (l : loc) (rs : list (string * json)) : option (heap * list pv) :=
  match rs with
  | [] => Some (h, [])
  | (name, d) :: r =>
      match get_typed h l name (PVal d) with
      | Some (h1, v) => match read_all h1 l r with Some (h2, vs) => Some (h2, v :: vs) | None => None end
      | None => None
      end
  end.

(** eval("{}(params)".format(model_type)), behavior_model_config_readers.py 38-40 and 102-104,
    dynamic_model_config_readers.py 28-30; the argument must be a server. *)
Definition build_model (h : heap) (ty : string) (p : pv) : gres (heap * built) :=
  match classes ty with
  | None => inr NameError
  | Some rs =>
      match p with
      | PServer l => match read_all h l rs with
                     | Some (h', vs) => inl (h', mkBuilt ty l vs)
                     | None => inr ValueError
                     end
      | _ => inr TypeError
      end
  end.

(** config_param_object.AddChild(name) for a name without "::" *)
Definition child (h : heap) (l : loc) (name : string) : gres (heap * pv) :=
  match AddChild h l name false with
  | Some (h', One v) => inl (h', v)
  | _ => inr TypeError
  end.

(** "{}(params)".format(x): the class name if x is a string *)
Definition type_name (v : pv) : gres string :=
  match v with PVal (JAtom (AStr s)) => inl s | _ => inr NameError end.

(** for _ in agent_states: one model of type [ty] with server [p] *)
Fixpoint build_n (n : nat) (h : heap) (ty : string) (p : pv) : gres (heap * list built) :=
  match n with
  | 0 => inl (h, [])
  | S n => match build_model h ty p with
           | inr e => inr e
           | inl (h1, b) => match build_n n h1 ty p with inr e => inr e | inl (h2, bs) => inl (h2, b :: bs) end
           end
  end.

(** FixedBehaviorType.create_from_config, behavior_model_config_readers.py 25-36: the new
    heap, the models, their types (kwargs of the later readers), the servers to persist. *)
Definition fixed_behaviors (h : heap) (cfg : loc) (srv : list pv) (n : nat)
    : gres (heap * list built * list string * list pv) :=
  match get_default h cfg "ModelType" (PVal (JAtom (AStr "BehaviorIDMClassic"))) with
  | None => inr ValueError
  | Some (h1, t) =>
      match child h1 cfg "ModelParams" with
      | inr e => inr e
      | inl (h2, mp) =>
          match n with
          | 0 => inl (h2, [], [], srv ++ [mp])
          | _ => match type_name t with
                 | inr e => inr e
                 | inl ty => match build_n n h2 ty mp with
                             | inr e => inr e
                             | inl (h3, bs) => inl (h3, bs, map (fun _ => ty) bs, srv ++ [mp])
                             end
                 end
          end
      end
  end.

(** FixedDynamicType.create_from_config, dynamic_model_config_readers.py 16-24 *)
Definition fixed_dynamics (h : heap) (cfg : loc) (n : nat) : gres (heap * list built) :=
  match get_default h cfg "ModelType" (PVal (JAtom (AStr "SingleTrackModel"))) with
  | None => inr ValueError
  | Some (h1, t) =>
      match child h1 cfg "ModelParams" with
      | inr e => inr e
      | inl (h2, mp) =>
          match n with
          | 0 => inl (h2, [])
          | _ => match type_name t with inr e => inr e | inl ty => build_n n h2 ty mp end
          end
      end
  end.

(** FixedExecutionType, execution_model_config_readers.py 17-33: a new server per model *)
Fixpoint exec_n (n : nat) (h : heap) (ty : string) : gres (heap * list built) :=
  match n with
  | 0 => inl (h, [])
  | S n => let (h0, l) := alloc h in
           match build_model h0 ty (PServer l) with
           | inr e => inr e
           | inl (h1, b) => match exec_n n h1 ty with inr e => inr e | inl (h2, bs) => inl (h2, b :: bs) end
           end
  end.
Definition fixed_executions (h : heap) (cfg : loc) (n : nat) : gres (heap * list built) :=
  match get_default h cfg "ModelType" (PVal (JAtom (AStr "ExecutionModelInterpolate"))) with
  | None => inr ValueError
  | Some (h1, t) =>
      match n with
      | 0 => inl (h1, [])
      | _ => match type_name t with inr e => inr e | inl ty => exec_n n h1 ty end
      end
  end.

(** The list of names under "ModelTypesList". *)
Fixpoint names_in (l : list json) : gres (list string) :=
  match l with
  | [] => inl []
  | j :: r => match type_name (PVal j), names_in r with
              | inl s, inl ss => inl (s :: ss)
              | inr e, _ => inr e
              | _, inr e => inr e
              end
  end.
Definition type_list (v : pv) : gres (list string) :=
  match v with PVal (JList l) => names_in l | _ => inr TypeError end.

(** 85-87: one model of every listed type, for the defaults *)
Fixpoint defaults (h : heap) (mp : loc) (tys : list string) : gres heap :=
  match tys with
  | [] => inl h
  | ty :: r => match child h mp ty with
               | inr e => inr e
               | inl (h1, p) => match build_model h1 ty p with inr e => inr e | inl (h2, _) => defaults h2 mp r end
               end
  end.
(** 94-102: one drawn type per agent; [k] numbers the draws *)
Fixpoint sample_n (n : nat) (h : heap) (mp : loc) (tys : list string) (draw : nat -> nat -> nat) (k : nat)
    : gres (heap * list built * nat) :=
  match n with
  | 0 => inl (h, [], k)
  | S n =>
      if length tys =? 0 then inr ValueError
      else match nth_error tys (draw k (length tys)) with
           | None => inr IndexError
           | Some ty =>
               match child h mp ty with
               | inr e => inr e
               | inl (h1, p) =>
                   match build_model (h1 ++ [[]]) ty p with     (* params = ParameterServer(), unused *)
                   | inr e => inr e
                   | inl (h2, b) => match sample_n n h2 mp tys draw (S k) with
                                    | inr e => inr e
                                    | inl (h3, bs, k') => inl (h3, b :: bs, k')
                                    end
                   end
               end
           end
  end.
(** SampleBehaviorType.create_from_config, 77-105 *)
Definition default_types := PVal (JList [JAtom (AStr "BehaviorIDMClassic"); JAtom (AStr "BehaviorMobilRuleBased")]).
Definition sampled_behaviors (h : heap) (cfg : loc) (srv : list pv) (n : nat) (draw : nat -> nat -> nat) (k : nat)
    : gres (heap * list built * list string * list pv * nat) :=
  match get_default h cfg "ModelTypesList" default_types with
  | None => inr ValueError
  | Some (h1, t) =>
      match child h1 cfg "ModelParams" with
      | inr e => inr e
      | inl (h2, mp) =>
          match type_list t with
          | inr e => inr e
          | inl tys =>
              match mp with
              | PServer m =>
                  match defaults h2 m tys with
                  | inr e => inr e
                  | inl h3 => match sample_n n h3 m tys draw k with
                              | inr e => inr e
                              | inl (h4, bs, k') => inl (h4, bs, map b_type bs, srv ++ map (fun b => PServer (b_server b)) bs, k')
                              end
                  end
              | _ => inr TypeError
              end
          end
      end
  end.

End Readers.

(** InteractionDataBehaviors.create_from_config, 50-67: the track and the server of each model *)
Fixpoint track_models {T} (n i : nat) (h : heap) (tracks : list T) : gres (heap * list (T * loc)) :=
  match n with
  | 0 => inl (h, [])
  | S n => match nth_error tracks i with
           | None => inr IndexError
           | Some t => let (h1, l) := alloc h in
                       match track_models n (S i) h1 tracks with inr e => inr e | inl (h2, bs) => inl (h2, (t, l) :: bs) end
           end
  end.
Definition track_behaviors {T} (h : heap) (srv : list pv) (n : nat) (tracks : list T)
    : gres (heap * list (T * loc) * list string * list pv) :=
  match track_models n 0 h tracks with
  | inr e => inr e
  | inl (h', bs) => inl (h', bs, map (fun _ => "BehaviorStaticTrajectory") bs, srv ++ map (fun b => PServer (snd b)) bs)
  end.
