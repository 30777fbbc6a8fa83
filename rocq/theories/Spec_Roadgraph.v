(* Specification vocabulary for the roadgraph properties: what the OpenDRIVE map itself says, without
   reference to the graph. *)
From Coq Require Import List NArith ZArith Bool.
From Verif Require Import Model_Map Model_Roadgraph.
Import ListNotations.

Section Spec.
  Context {P : Type}.
  Implicit Types (m : xmap P) (s : section P) (l a b : xlane P).

  (* lane l lies in section s of road r of the map *)
  Definition in_section l s := In (l_id l, l) s.
  Definition section_of m (r : N) s :=
    exists rd, In (r, rd) (m_roads m) /\ In s (r_sections rd).
  Definition lane_of m (r : N) l := exists s, section_of m r s /\ in_section l s.

  (* all lanes of the map, in storage order *)
  Definition sections_list m : list (N * section P) :=
    flat_map (fun kr => map (fun s => (fst kr, s)) (r_sections (snd kr))) (m_roads m).
  Definition lanes_list m : list (N * xlane P) :=
    flat_map (fun rs => map (fun kl => (fst rs, snd kl)) (snd rs)) (sections_list m).

  (* maps as std::map delivers them, with globally unique lane ids (XodrLane takes them from a counter,
     bark/world/opendrive/lane.cpp:16-27) and at most one lane per position and section. *)
  Record map_ok m : Prop := {
    ok_roads : m_sorted (m_roads m);
    ok_sections : forall r s, section_of m r s -> m_sorted s;
    ok_keys : forall r s k l, section_of m r s -> In (k, l) s -> k = l_id l;
    ok_ids : NoDup (map (fun rl => l_id (snd rl)) (lanes_list m));
    ok_pos : forall r s, section_of m r s -> NoDup (map (fun kl => l_pos (snd kl)) s) }.

  (* the position one step nearer to the reference line *)
  Definition inward (p : Z) : Z := if (0 <? p)%Z then (p - 1)%Z else (p + 1)%Z.

  (* the next position to the left / right of p for a traveller heading in direction d.
     OpenDRIVE positions grow to the left of the reference line's direction; position 0 is the
     reference line itself and no lane to drive on, so it is skipped. *)
  Definition up (p : Z) : Z := if (p =? -1)%Z then 1%Z else (p + 1)%Z.
  Definition down (p : Z) : Z := if (p =? 1)%Z then (-1)%Z else (p - 1)%Z.
  Definition left_pos (d : dir) (p : Z) : Z := match d with BACKWARD => down p | _ => up p end.
  Definition right_pos (d : dir) (p : Z) : Z := match d with BACKWARD => up p | _ => down p end.

  (* right-hand traffic: lanes right of the reference line run along it, lanes left of it against *)
  Definition right_hand l : Prop :=
    ((l_pos l < 0)%Z -> l_dir l = FORWARD) /\ ((0 < l_pos l)%Z -> l_dir l = BACKWARD).

  Definition has_plan_view s := exists l, in_section l s /\ l_pos l = 0%Z.
  (* no gaps between a lane and the reference line *)
  Definition contiguous s :=
    forall l, in_section l s -> l_pos l <> 0%Z ->
    exists l', in_section l' s /\ l_pos l' = inward (l_pos l).

  (* ---- which lanes the map declares to be connected ---- *)
  Definition first_section (r : road P) s := exists rest, r_sections r = s :: rest.
  Definition last_section (r : road P) s := exists rest, r_sections r = rest ++ [s].

  (* the section the road's successor / predecessor link refers to *)
  Definition next_section m (r : road P) s :=
    snd (r_succ r) = true /\ exists r', m_find (fst (r_succ r)) (m_roads m) = Some r' /\ first_section r' s.
  Definition prev_section m (r : road P) s :=
    snd (r_pred r) = true /\ exists r', m_find (fst (r_pred r)) (m_roads m) = Some r' /\ last_section r' s.

  (* the code skips a road altogether when its successor id exceeds 1000 (also the default 1000000 of a
     road without successor). *)
  Definition read_links (r : road P) := (fst (r_succ r) <= 1000)%N.

  Definition road_link m a b : Prop :=
    exists k r s s', In (k, r) (m_roads m) /\ read_links r /\ In s (r_sections r) /\ in_section a s /\
      next_section m r s' /\ in_section b s' /\ l_to a <> 0%Z /\ l_pos b = l_to a.
  (* a lane without successor position is skipped completely when the road has a successor section *)
  Definition road_back_link m a b : Prop :=
    exists k r s s', In (k, r) (m_roads m) /\ read_links r /\ In s (r_sections r) /\ in_section b s /\
      prev_section m r s' /\ in_section a s' /\ l_from b <> 0%Z /\ l_pos a = l_from b /\
      (l_to b = 0%Z -> forall s'', ~ next_section m r s'').
  Definition junction_link m a b : Prop :=
    exists j cs k c ri rc si sc pa pb,
      In (j, cs) (m_junctions m) /\ In (k, c) cs /\
      m_find (c_incoming c) (m_roads m) = Some ri /\ m_find (c_connecting c) (m_roads m) = Some rc /\
      first_section ri si /\ first_section rc sc /\ In (pa, pb) (c_links c) /\
      in_section a si /\ l_pos a = pa /\ in_section b sc /\ l_pos b = pb.

  Definition linked m a b : Prop := road_link m a b \/ road_back_link m a b \/ junction_link m a b.
End Spec.
