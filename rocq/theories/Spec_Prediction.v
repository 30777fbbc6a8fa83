(* Specification vocabulary for prediction and observation (C44, C45, C57, C58). *)
From Coq Require Import List NArith QArith Bool.
From Verif Require Import Model_Map Model_World Spec_World Model_Prediction.
Import ListNotations.

Section Spec.
  Context {T : Types} (O : Ops T).

  (* [w'] differs from [w] only in its table of agents, which lists the same ids *)
  Definition only_agents_changed (w w' : world T) : Prop :=
    (exists m, w' = set_agents w m) /\ map fst (w_agents w') = map fst (w_agents w).

  (* Listed for the specific model, and there is one. *)
  Definition specific (s : @settings T) (id : AgentId) : Prop := ps_specific s <> None /\ In id (ps_agents s).

  (* the model [b] agent [a] (stored under [id]) gets *)
  Record assigned (ns : tBM T) (s : @settings T) (ow : observed T) (id : AgentId) (a : agent T) (b : tBM T) : Prop := {
    as_specific : forall m, ps_specific s = Some m -> In id (ps_agents s) -> b = b_clone O m;
    as_ego : forall e, id = ow_ego ow -> ~ specific s id -> ps_ego s = Some e -> b = b_clone O e;
    as_default : forall d, id <> ow_ego ow -> ps_default s = Some d -> live_at O (ow_world ow) a ->
                 ~ In id (ps_agents s) -> b = b_clone O d;
    as_not_started : forall d, id <> ow_ego ow -> ps_default s = Some d -> ~ live_at O (ow_world ow) a ->
                 ~ specific s id -> b = ns;
    as_kept : id <> ow_ego ow -> ~ specific s id ->
              ps_default s = None \/ (live_at O (ow_world ow) a /\ In id (ps_agents s)) -> b = ag_bm a }.

  (* a behaviour model that reports NOT_STARTED_YET now and after any sequence of Plan and Clone calls *)
  Definition never_starts (b : tBM T) : Prop :=
    exists P : tBM T -> Prop, P b /\ forall b', P b' ->
      b_status O b' = NOT_STARTED_YET /\ (forall dt ow, P (b_plan O b' dt ow)) /\ P (b_clone O b').

  (* successive predictions, each starting from the observed world the previous one returned *)
  Fixpoint predictions (ow : observed T) (dts : list Q) : option (observed T) :=
    match dts with
    | [] => Some ow
    | dt :: r => match predict O ow dt with None => None | Some ow' => predictions ow' r end
    end.

  (* [a'] is the clone of [a] whose current state is [s'] instead of [s]; everything else is equal *)
  Definition clone_with_state (a a' : agent T) (s s' : tState T) : Prop :=
    exists h act, ag_hist a = h ++ [(s, act)] /\ a' = set_hist (clone_agent O a) (h ++ [(s', act)]).

  (* the generator after [n] draws *)
  Definition after {DS Dev} (sample : DS -> DS * Dev) (n : nat) (g : DS) : DS := Nat.iter n (fun g => fst (sample g)) g.
  (* how many agents other than [ego] come before agent [k] *)
  Definition others_before (w : world T) (ego k : AgentId) : nat :=
    length (filter (fun p => negb (N.eqb (fst p) ego) && (fst p <? k)%N) (w_agents w)).
End Spec.
