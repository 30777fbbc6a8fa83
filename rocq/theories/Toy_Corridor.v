(* Concrete line operations and maps for the corridor properties. *)
From Coq Require Import List NArith ZArith QArith Bool Arith Lia.
From Verif Require Import Model_Map Model_Roadgraph Model_RoadSearch Model_Intersection Spec_Roadgraph
  Spec_Roadgraph2 Spec_RoadSearch Model_Corridor Spec_Corridor Toy_Map Proof_Map Proof_Roadgraph Proof_Roadgraph2 Props_Roadgraph Proof_RoadSearch2.
Import ListNotations.
Local Open Scope nat_scope.

(* joining appends, the centre line is the left boundary, simplification does nothing *)
Definition LN : line_ops nat :=
  mkLineOps (fun a b => match a, b with [], _ | _, [] => None | _, _ => Some (a ++ b) end)
    (fun a => a) (fun a => a) (fun a b => match a, b with [], _ | _, [] => None | _, _ => Some a end)
    (fun a => inject_Z (Z.of_nat (length a))).
Lemma LN_ok : lines_ok LN.
Proof.
  split; [|split].
  - intros [|x a] [|y b] Ha Hb; try congruence. exists ((x :: a) ++ y :: b). split; auto. discriminate.
  - intros [|x a] [|y b] Ha Hb; try congruence. exists (x :: a). split; auto.
  - auto.
Qed.

Lemma linked_succ {P : Type} (m : xmap P) g r a b : map_ok m -> generate m = Some g -> lane_of m r a -> joined m a b ->
  exists succs, successor_lanes g (l_id a) = Some succs /\ In (l_id b) succs.
Proof.
  intros OK G Ha J. destruct (C61_successor_lanes m g r a OK G Ha) as (s & _ & E & _ & H & _). exists s. split; auto.
  apply H. exists b. split; auto.
Qed.

Lemma map2_lane r l : lane_of map2 r l -> (r = 1%N /\ In l [L1; L2; L3; L4]) \/ (r = 2%N /\ In l [L5; L6; L7; L8]).
Proof.
  intros (s & Hs & Hl). apply map2_section in Hs as [(-> & ->)|(-> & ->)].
  - left. split; auto. apply S1_in in Hl. cbn. intuition.
  - right. split; auto. apply S2_in in Hl. cbn. intuition.
Qed.
Lemma map2_drawable : drawable map2 [1; 2]%N.
Proof.
  intros r s _ Hs. apply map2_section in Hs as [(-> & ->)|(-> & ->)].
  - split; [apply map2_contiguous1|]. intros l Hl. apply S1_in in Hl. repeat destruct Hl as [Hl|Hl]; subst l; discriminate.
  - split; [apply map2_contiguous2|]. intros l Hl. apply S2_in in Hl. repeat destruct Hl as [Hl|Hl]; subst l; discriminate.
Qed.

Section Finite.
  Context {P : Type} (m : xmap P) (g : graph P).
  Hypothesis OK : map_ok m.
  Hypothesis G : generate m = Some g.
  Definition succ_check (f : xlane P -> xlane P -> bool) : bool :=
    forallb (fun ra => match successor_lanes g (l_id (snd ra)) with
      | None => false
      | Some ss => forallb (fun rb => negb (existsb (N.eqb (l_id (snd rb))) ss) || f (snd ra) (snd rb)) (lanes_list m)
      end) (lanes_list m).
  Lemma succ_check_ok f : succ_check f = true -> forall a b ra rb, lane_of m ra a -> lane_of m rb b -> joined m a b -> f a b = true.
  Proof.
    intros C a b ra rb Ha Hb J. unfold succ_check in C. rewrite forallb_forall in C.
    specialize (C (ra, a) (proj2 (lanes_list_In m ra a OK) Ha)). cbn in C.
    destruct (linked_succ m g ra a b OK G Ha J) as (ss & E & I). rewrite E in C. rewrite forallb_forall in C.
    specialize (C (rb, b) (proj2 (lanes_list_In m rb b OK) Hb)). cbn in C. apply orb_true_iff in C as [C|C]; auto.
    apply negb_true_iff in C. exfalso. assert (existsb (N.eqb (l_id b)) ss = true); [|congruence].
    apply existsb_exists. exists (l_id b). split; auto. apply N.eqb_refl.
  Qed.
  Lemma check_unlinked : succ_check (fun a b => negb (l_pos a =? 0)%Z && negb (l_pos b =? 0)%Z) = true -> reference_unlinked m.
  Proof.
    intros C a b J. assert (Jn : joined m a b) by (left; auto).
    destruct (Proof_RoadSearch2.sym_linked_lanes m a b (or_introl J)) as ((ra & Ha) & (rb & Hb)).
    pose proof (succ_check_ok _ C a b ra rb Ha Hb Jn) as K. apply andb_true_iff in K as (K1 & K2).
    apply negb_true_iff in K1, K2. apply Z.eqb_neq in K1, K2. auto.
  Qed.
  (* roads given by a function of the lane id *)
  Lemma check_noself (road : xlane P -> N) : (forall r l, lane_of m r l -> road l = r) ->
    succ_check (fun a b => negb (road a =? road b)%N) = true -> forall r a b, lane_of m r a -> lane_of m r b -> ~ linked m a b.
  Proof.
    intros R C r a b Ha Hb J. pose proof (succ_check_ok _ C a b r r Ha Hb (or_introl J)) as K. cbn in K.
    rewrite (R r a Ha), (R r b Hb), N.eqb_refl in K. discriminate.
  Qed.
End Finite.


(* general construction: every road one section *)
Definition mk_road (id : N) (succ pred : option N) (ls : list (xlane nat)) : N * road nat :=
  (id, mkRoad (match succ with Some s => (s, true) | None => (1000%N, false) end)
              (match pred with Some p => (p, true) | None => (1000000%N, false) end) [sec_of ls]).

(* two lanes of road 1 merge into the single lane of road 2 *)
Definition M1 := pvl 1.
Definition M2 := tl 2 (-1) DRIVING FORWARD 0 (-1).
Definition M3 := tl 3 (-2) DRIVING FORWARD 0 (-1).
Definition M4 := pvl 4.
Definition M5 := tl 5 (-1) DRIVING FORWARD (-1) 0.
Definition merge_map : xmap nat := mkMap [mk_road 1 (Some 2%N) None [M1; M2; M3]; mk_road 2 None (Some 1%N) [M4; M5]] [].
Definition gM : graph nat := match generate merge_map with Some g => g | None => empty_graph end.
Lemma gM_generated : generate merge_map = Some gM. Proof. vm_compute. reflexivity. Qed.

(* roads 1 -> 3 -> 2: the second lane of roads 3 and 2 has no counterpart on road 1 *)
Definition W1 := pvl 1.
Definition W2 := tl 2 (-1) DRIVING FORWARD 0 (-1).
Definition W3 := pvl 3.
Definition W4 := tl 4 (-1) DRIVING FORWARD (-1) (-1).
Definition W5 := tl 5 (-2) DRIVING FORWARD 0 (-2).
Definition W6 := pvl 6.
Definition W7 := tl 7 (-1) DRIVING FORWARD (-1) 0.
Definition W8 := tl 8 (-2) DRIVING FORWARD (-2) 0.
Definition widen_map : xmap nat :=
  mkMap [mk_road 1 (Some 3%N) None [W1; W2]; mk_road 2 None (Some 3%N) [W6; W7; W8];
         mk_road 3 (Some 2%N) (Some 1%N) [W3; W4; W5]] [].
Definition gW : graph nat := match generate widen_map with Some g => g | None => empty_graph end.
Lemma gW_generated : generate widen_map = Some gW. Proof. vm_compute. reflexivity. Qed.

Ltac map_ok_tac sec := constructor;
  [ unfold m_sorted; cbn; repeat constructor
  | intros r s H; apply sec in H; repeat (destruct H as [H|H]); destruct H as (-> & ->); unfold m_sorted; cbn; repeat constructor
  | intros r s k l H; apply sec in H; repeat (destruct H as [H|H]); destruct H as (-> & ->); cbn; intros Hin;
      repeat (destruct Hin as [Hin|Hin]); try (inversion Hin; subst; reflexivity); destruct Hin
  | cbn; repeat (constructor; [cbn; intuition discriminate|]); constructor
  | intros r s H; apply sec in H; repeat (destruct H as [H|H]); destruct H as (-> & ->); cbn;
      repeat (constructor; [cbn; intuition discriminate|]); constructor ].
Lemma merge_section r s : section_of merge_map r s -> (r = 1%N /\ s = sec_of [M1; M2; M3]) \/ (r = 2%N /\ s = sec_of [M4; M5]).
Proof. intros (rd & Hr & Hs). cbn in Hr. destruct Hr as [E|[E|[]]]; inversion E; subst; cbn in Hs; destruct Hs as [<-|[]]; auto. Qed.
Lemma merge_ok : map_ok merge_map.
Proof. map_ok_tac merge_section. Qed.
Lemma widen_section r s : section_of widen_map r s ->
  (r = 1%N /\ s = sec_of [W1; W2]) \/ (r = 2%N /\ s = sec_of [W6; W7; W8]) \/ (r = 3%N /\ s = sec_of [W3; W4; W5]).
Proof. intros (rd & Hr & Hs). cbn in Hr. destruct Hr as [E|[E|[E|[]]]]; inversion E; subst; cbn in Hs; destruct Hs as [<-|[]]; auto. Qed.
Lemma widen_ok : map_ok widen_map.
Proof. map_ok_tac widen_section. Qed.

(* sections given by a list of lanes whose positions are checked by computation *)
Definition good_section (ls : list (xlane nat)) : bool :=
  forallb (fun l => negb (match l_line l with [] => true | _ => false end) &&
                    ((l_pos l =? 0)%Z || existsb (fun x => (l_pos x =? inward (l_pos l))%Z) ls)) ls.
Lemma good_section_ok ls : good_section ls = true ->
  contiguous (sec_of ls) /\ forall l, in_section l (sec_of ls) -> l_line l <> [].
Proof.
  unfold good_section. rewrite forallb_forall. intros H.
  assert (I : forall l, in_section l (sec_of ls) <-> In l ls).
  { intros l. unfold in_section, sec_of. rewrite in_map_iff. split; [intros (x & E & Hx); inversion E; subst; auto|eauto]. }
  split.
  - intros l Hl Z. apply I in Hl. specialize (H l Hl). apply andb_true_iff in H as (_ & H). apply orb_true_iff in H as [H|H].
    + apply Z.eqb_eq in H. contradiction.
    + apply existsb_exists in H as (x & Hx & E). exists x. split; [now apply I|now apply Z.eqb_eq].
  - intros l Hl E. apply I in Hl. specialize (H l Hl). rewrite E in H. discriminate.
Qed.
Lemma merge_drawable ids : drawable merge_map ids.
Proof. intros r s _ H. apply merge_section in H as [(_ & ->)|(_ & ->)]; apply good_section_ok; reflexivity. Qed.
Lemma widen_drawable ids : drawable widen_map ids.
Proof. intros r s _ H. apply widen_section in H as [(_ & ->)|[(_ & ->)|(_ & ->)]]; apply good_section_ok; reflexivity. Qed.
Lemma merge_unlinked : reference_unlinked merge_map.
Proof. apply (check_unlinked merge_map gM merge_ok gM_generated). vm_compute. reflexivity. Qed.
Lemma widen_unlinked : reference_unlinked widen_map.
Proof. apply (check_unlinked widen_map gW widen_ok gW_generated). vm_compute. reflexivity. Qed.
Lemma map2_unlinked : reference_unlinked map2.
Proof. apply (check_unlinked map2 g2 map2_ok g2_generated). vm_compute. reflexivity. Qed.

Definition road_at (tbl : list (N * N)) (l : xlane nat) : N := match m_find (l_id l) tbl with Some r => r | None => 0%N end.
Definition tbl2 : list (N * N) := [(1,1);(2,1);(3,1);(4,1);(5,2);(6,2);(7,2);(8,2)]%N.
Definition tblM : list (N * N) := [(1,1);(2,1);(3,1);(4,2);(5,2)]%N.
Definition tblW : list (N * N) := [(1,1);(2,1);(3,3);(4,3);(5,3);(6,2);(7,2);(8,2)]%N.
Lemma in_sec_of l ls : in_section l (sec_of ls) -> In l ls.
Proof. unfold in_section, sec_of. rewrite in_map_iff. intros (x & E & Hx); inversion E; subst; auto. Qed.
Lemma map2_route : simple_route map2 [1; 2]%N.
Proof.
  split; [cbn; repeat (constructor; [cbn; intuition discriminate|]); constructor|].
  intros r a b _. apply (check_noself map2 g2 map2_ok g2_generated (road_at tbl2)).
  - intros r0 l (s & Hs & Hl). apply map2_section in Hs as [(-> & ->)|(-> & ->)]; apply in_sec_of in Hl; cbn in Hl;
      repeat (destruct Hl as [<-|Hl]; [reflexivity|]); destruct Hl.
  - vm_compute. reflexivity.
Qed.
Lemma widen_route : simple_route widen_map [1; 3; 2]%N.
Proof.
  split; [cbn; repeat (constructor; [cbn; intuition discriminate|]); constructor|].
  intros r a b _. apply (check_noself widen_map gW widen_ok gW_generated (road_at tblW)).
  - intros r0 l (s & Hs & Hl). apply widen_section in Hs as [(-> & ->)|[(-> & ->)|(-> & ->)]]; apply in_sec_of in Hl; cbn in Hl;
      repeat (destruct Hl as [<-|Hl]; [reflexivity|]); destruct Hl.
  - vm_compute. reflexivity.
Qed.
