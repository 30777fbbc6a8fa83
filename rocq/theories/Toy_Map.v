(* Concrete maps: two connected roads with traffic in both directions; a one-way road; a two-section road. *)
From Coq Require Import List NArith ZArith Bool Lia.
From Verif Require Import Model_Map Model_Roadgraph Spec_Roadgraph Spec_Roadgraph2.
Import ListNotations.

Definition tl (id : N) (pos : Z) (t : ltype) (d : dir) (fr to : Z) : xlane nat :=
  mkLane id pos t d fr to None [N.to_nat id; 100 + N.to_nat id].
Definition pvl (id : N) : xlane nat := tl id 0 (OTHERTYPE 0) FORWARD 0 0.
Definition sec_of (ls : list (xlane nat)) : section nat := map (fun l => (l_id l, l)) ls.

Definition L1 := pvl 1.
Definition L2 := tl 2 (-1) DRIVING FORWARD 0 (-1).
Definition L3 := tl 3 (-2) DRIVING FORWARD 0 (-2).
Definition L4 := tl 4 1 DRIVING BACKWARD 0 1.
Definition S1 := sec_of [L1; L2; L3; L4].
Definition L5 := pvl 5.
Definition L6 := tl 6 (-1) DRIVING FORWARD (-1) 0.
Definition L7 := tl 7 (-2) DRIVING FORWARD (-2) 0.
Definition L8 := tl 8 1 DRIVING BACKWARD 1 0.
Definition S2 := sec_of [L5; L6; L7; L8].
Definition R1 := mkRoad (2%N, true) (1000000%N, false) [S1].
Definition R2 := mkRoad (1000000%N, false) (1%N, true) [S2].
Definition map2 : xmap nat := mkMap [(1%N, R1); (2%N, R2)] [].

Ltac in_cases := repeat match goal with
  | H : In _ [] |- _ => destruct H
  | H : In _ (_ :: _) |- _ => destruct H as [H|H]
  | H : False |- _ => destruct H
  | H : (_, _) = (_, _) |- _ => inversion H; clear H; subst
  end.
Lemma map2_section r s : section_of map2 r s -> (r = 1%N /\ s = S1) \/ (r = 2%N /\ s = S2).
Proof.
  intros (rd & Hr & Hs). cbn in Hr. destruct Hr as [E|[E|[]]]; inversion E; subst; cbn in Hs; destruct Hs as [<-|[]]; auto.
Qed.
Lemma map2_ok : map_ok map2.
Proof.
  constructor.
  - unfold m_sorted. cbn. repeat constructor.
  - intros r s H. apply map2_section in H as [(-> & ->)|(-> & ->)]; unfold m_sorted; cbn; repeat constructor.
  - intros r s k l H. apply map2_section in H as [(-> & ->)|(-> & ->)]; cbn; intros Hin;
      repeat destruct Hin as [Hin|Hin]; try (inversion Hin; subst; reflexivity); destruct Hin.
  - cbn. repeat (constructor; [cbn; intuition discriminate|]). constructor.
  - intros r s H. apply map2_section in H as [(-> & ->)|(-> & ->)]; cbn;
      repeat (constructor; [cbn; intuition discriminate|]); constructor.
Qed.
Lemma map2_s1 : section_of map2 1 S1. Proof. exists R1. cbn. auto. Qed.
Lemma map2_s2 : section_of map2 2 S2. Proof. exists R2. cbn. auto. Qed.
Ltac in_s := unfold in_section; cbn; auto 10.
Lemma S1_in l : in_section l S1 <-> l = L1 \/ l = L2 \/ l = L3 \/ l = L4.
Proof.
  unfold in_section. cbn. split.
  - intros H. repeat destruct H as [H|H]; try (inversion H; auto; fail).
  - intros H. repeat destruct H as [H|H]; subst; cbn; auto 10.
Qed.
Lemma S2_in l : in_section l S2 <-> l = L5 \/ l = L6 \/ l = L7 \/ l = L8.
Proof.
  unfold in_section. cbn. split.
  - intros H. repeat destruct H as [H|H]; try (inversion H; auto; fail).
  - intros H. repeat destruct H as [H|H]; subst; cbn; auto 10.
Qed.
Lemma map2_right_hand l : in_section l S1 -> right_hand l.
Proof. intros H. apply S1_in in H. repeat destruct H as [H|H]; subst; split; cbn; intros; try lia; reflexivity. Qed.
Lemma map2_contiguous1 : contiguous S1.
Proof.
  intros l H Hz. apply S1_in in H. repeat destruct H as [H|H]; subst; cbn in Hz; try lia.
  - exists L1. split; [apply S1_in; auto|reflexivity].
  - exists L2. split; [apply S1_in; auto|reflexivity].
  - exists L1. split; [apply S1_in; auto|reflexivity].
Qed.
Lemma map2_contiguous2 : contiguous S2.
Proof.
  intros l H Hz. apply S2_in in H. repeat destruct H as [H|H]; subst; cbn in Hz; try lia.
  - exists L5. split; [apply S2_in; auto|reflexivity].
  - exists L6. split; [apply S2_in; auto|reflexivity].
  - exists L5. split; [apply S2_in; auto|reflexivity].
Qed.
Lemma map2_pv1 : has_plan_view S1. Proof. exists L1. split; [apply S1_in; auto|reflexivity]. Qed.
Lemma map2_pv2 : has_plan_view S2. Proof. exists L5. split; [apply S2_in; auto|reflexivity]. Qed.
Lemma map2_simple : simple_roads map2.
Proof.
  intros k r H. cbn in H. destruct H as [E|[E|[]]]; inversion E; subst.
  - exists S1. auto using map2_pv1, map2_contiguous1.
  - exists S2. auto using map2_pv2, map2_contiguous2.
Qed.
Lemma map2_linked26 : linked map2 L2 L6.
Proof.
  left. exists 1%N, R1, S1, S2. split; [cbn; auto|]. split; [unfold read_links; cbn; lia|].
  split; [cbn; auto|]. split; [apply S1_in; auto|]. split.
  - split; [reflexivity|]. exists R2. split; [reflexivity|]. exists []. reflexivity.
  - split; [apply S2_in; auto|]. split; [cbn; lia|reflexivity].
Qed.
Definition g2 : graph nat := match generate map2 with Some g => g | None => empty_graph end.
Lemma g2_generated : generate map2 = Some g2.
Proof. vm_compute. reflexivity. Qed.

(* one-way road: both lanes run along the reference line *)
Definition O1 := pvl 1.
Definition O2 := tl 2 (-1) DRIVING FORWARD 0 0.
Definition O3 := tl 3 1 DRIVING FORWARD 0 0.
Definition SO := sec_of [O1; O2; O3].
Definition one_way : xmap nat := mkMap [(1%N, mkRoad (1000000%N, false) (1000000%N, false) [SO])] [].
Lemma one_way_section r s : section_of one_way r s -> r = 1%N /\ s = SO.
Proof. intros (rd & Hr & Hs). cbn in Hr. destruct Hr as [E|[]]; inversion E; subst; cbn in Hs; destruct Hs as [<-|[]]; auto. Qed.
Lemma one_way_ok : map_ok one_way.
Proof.
  constructor.
  - unfold m_sorted. cbn. repeat constructor.
  - intros r s H. apply one_way_section in H as (-> & ->); unfold m_sorted; cbn; repeat constructor.
  - intros r s k l H. apply one_way_section in H as (-> & ->); cbn; intros Hin;
      repeat destruct Hin as [Hin|Hin]; try (inversion Hin; subst; reflexivity); destruct Hin.
  - cbn. repeat (constructor; [cbn; intuition discriminate|]). constructor.
  - intros r s H. apply one_way_section in H as (-> & ->); cbn;
      repeat (constructor; [cbn; intuition discriminate|]); constructor.
Qed.

(* a road with two sections, then a second road *)
Definition D1 := tl 2 (-1) DRIVING FORWARD 0 (-1).
Definition D2 := tl 4 (-1) DRIVING FORWARD (-1) (-1).
Definition D3 := tl 6 (-1) DRIVING FORWARD (-1) 0.
Definition two_sections : xmap nat :=
  mkMap [(1%N, mkRoad (2%N, true) (1000000%N, false) [sec_of [pvl 1; D1]; sec_of [pvl 3; D2]]);
         (2%N, mkRoad (1000000%N, false) (1%N, true) [sec_of [pvl 5; D3]])] [].
Definition gD : graph nat := match generate two_sections with Some g => g | None => empty_graph end.
