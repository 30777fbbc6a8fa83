(* Two parallel lanes on the toy line of Toy_World.v: states below 500 are on the first lane ([false]), the others on
   the second lane ([true]), shifted by 1000. One unit is a quarter of a metre; everybody stands still. *)
From Coq Require Import List NArith ZArith QArith Qabs Bool Lia.
From Verif Require Import Model_Map Proof_Map Model_World Spec_World Toy_World Model_FrontRear Spec_FrontRear Props_FrontRear
  Model_LaneChange Spec_LaneChange.
Import ListNotations.

Definition tl_pos (x : Z) : Z := if (500 <=? x)%Z then x - 1000 else x.
Definition tl_poly (c : bool) : Z * Z := if c then (501, 1499)%Z else ((-499)%Z, 499%Z).
Definition tl_rel (_ : bool) (x : Z) (_ : unit) (y : Z) (_ : unit) : frel := mkRel 0 true ((tl_pos y - tl_pos x) # 4) 0.
Definition tl_vel (_ : Z) : Q := 0.
Definition tl_end (_ : bool) (_ : Z) : Q := 1000.

Definition tl_check := lc_check TO bool Bool.eqb tl_poly (fun x => x) tl_rel tl_vel tl_end.
Definition tl_admissible := admissible TO bool tl_poly (fun x => x) tl_rel tl_vel tl_end.

Lemma beqb_iff a b : Bool.eqb a b = true <-> a = b.
Proof. apply Bool.eqb_true_iff. Qed.

(* a world of vehicles with increasing ids *)
Lemma toy_line_ok l : m_sorted (w_agents (toy_line l)) -> world_ok (toy_line l).
Proof.
  intros Hs. split; [exact Hs|]. split; [|discriminate]. intros k a H. apply m_find_In in H. cbn in H.
  apply in_map_iff in H as ([i x] & E & _). cbn in E. injection E as <- <-. split; [reflexivity|].
  unfold agent_ok, kept; cbn; split; (discriminate || lia).
Qed.

(* distances on the toy lanes are below DBL_MAX for vehicles within +-10^6 units *)
Lemma tl_finite (w : world TT) ego e s c a d : (Z.abs s <= 1000000)%Z ->
  (forall k b x, get_agent w k = Some b -> current_state b = Some x -> (Z.abs x <= 1000000)%Z) ->
  ahead TO bool tl_poly tl_rel w ego e s c a d -> (r_lon d < dbl_max)%Q.
Proof.
  intros Hs Hw (((Hg & _) & (_ & _ & (x & Hx & ->) & _)) & _). specialize (Hw _ _ _ Hg Hx).
  unfold tl_rel; cbn [r_lon]. apply Qlt_trans with (inject_Z 3000000); [|reflexivity].
  unfold Qlt; cbn. unfold tl_pos. destruct (500 <=? x)%Z eqn:E1, (500 <=? s)%Z eqn:E2; cbn in Hw; try (apply Z.leb_le in E1); try (apply Z.leb_le in E2); cbn in *; lia.
Qed.
