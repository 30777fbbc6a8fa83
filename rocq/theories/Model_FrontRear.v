(* World::GetAgentFrontRearForId (bark/world/world.cpp:251-317). *)
From Coq Require Import List NArith ZArith QArith Qabs Bool.
From Verif Require Import Model_Map Model_World.
Import ListNotations.

(* FrenetStateDifference fields read by the selection, plus the other agent's Frenet angle
   (bark/commons/transformation/frenet_state.hpp:48-64) *)
Record frel := mkRel { r_lat : Q; r_lat_zeroed : bool; r_lon : Q; r_angle : Q }.

(* std::numeric_limits<double>::max() = 2^1024 - 2^971, the lon of a default FrenetPosition
   (bark/commons/transformation/frenet.hpp, frenet_state.hpp:24-28) *)
Definition dbl_max : Q := inject_Z (2 ^ 1024 - 2 ^ 971).

Section FR.
  Context {T : Types} (O : Ops T).
  Variable Corridor : Type.
  Variable cor_poly : Corridor -> tPoly T.                    (* GetMergedPolygon *)
  Variable position : tState T -> tPoint T.                   (* GetCurrentPosition *)
  (* world.cpp:278, 295-296: FrenetState of ego and other w.r.t. the corridor's centre line and the
     shape-aware difference *)
  Variable rel : Corridor -> tState T -> tShape T -> tState T -> tShape T -> frel.

  Definition pair_opt := option (agent T * frel).
  (* lon of nearest_difference_{front,rear}: DBL_MAX while unset *)
  Definition best_lon (b : pair_opt) : Q := match b with Some (_, d) => r_lon d | None => dbl_max end.

  (* world.cpp:297-301: continue-conditions on lateral offset and angle *)
  Definition in_thresholds (d : frel) (latthr angthr : Q) : bool :=
    let lat := if r_lat_zeroed d then 0 else r_lat d in
    Qle_bool (Qabs lat) latthr && Qle_bool (Qabs (r_angle d)) angthr.

  (* world.cpp:287-311 one loop iteration. None = undefined behaviour (empty history). *)
  Definition fr_iter (w : world T) (ego : AgentId) (egos : tState T) (egosh : tShape T) (c : Corridor)
             (latthr angthr lonthr : Q) (acc : pair_opt * pair_opt) (a : agent T)
    : option (pair_opt * pair_opt) :=
    if (N.eqb (ag_id a) ego || negb (is_valid (b_status O (ag_bm a))) || negb (valid_at a (w_time w)))%bool
    then Some acc
    else
      match current_state a with
      | None => None
      | Some s =>
          let d := rel c egos egosh s (ag_shape a) in
          if negb (in_thresholds d latthr angthr) then Some acc
          else if Qle_bool lonthr (r_lon d) && negb (Qle_bool (best_lon (fst acc)) (r_lon d))
          then Some (Some (a, d), snd acc)
          else if negb (Qle_bool lonthr (r_lon d)) && negb (Qle_bool (best_lon (snd acc)) (r_lon d))
          then Some (fst acc, Some (a, d))
          else Some acc
      end.

  Fixpoint fr_loop (w : world T) (ego : AgentId) egos egosh (c : Corridor) (latthr angthr lonthr : Q)
           (l : list (agent T)) (acc : pair_opt * pair_opt) : option (pair_opt * pair_opt) :=
    match l with
    | [] => Some acc
    | a :: r => match fr_iter w ego egos egosh c latthr angthr lonthr acc a with
                | None => None
                | Some acc' => fr_loop w ego egos egosh c latthr angthr lonthr r acc'
                end
    end.

  (* world.cpp:258-267 the considered agents *)
  Definition considered (w : world T) (ego : AgentId) (c : Corridor) (in_corridor : bool)
    : option (kmap (agent T)) :=
    if in_corridor then get_agents_intersecting O w (cor_poly c)
    else match get_agent w ego with
         | None => None
         | Some e => match current_state e with
                     | None => None
                     | Some s => get_nearest_agents O w (position s) (N.to_nat (w_maxfr w + 1))
                     end
         end.

  (* world.cpp:251-317 *)
  Definition get_front_rear (w : world T) (ego : AgentId) (c : Corridor) (latthr angthr : Q)
             (in_corridor : bool) (lonthr : Q) : option (pair_opt * pair_opt) :=
    match considered w ego c in_corridor with
    | None => None
    | Some [] => Some (None, None)
    | Some m =>
        match get_agent w ego with
        | None => None
        | Some e =>
            match current_state e with
            | None => None
            | Some s => fr_loop w ego s (ag_shape e) c latthr angthr lonthr (map snd m) (None, None)
            end
        end
    end.
End FR.
