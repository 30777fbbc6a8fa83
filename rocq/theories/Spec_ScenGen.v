(** What a user expects of configurable scenario generation, in terms of what the
    config readers returned. *)

From Coq Require Import String List Arith Lia Bool QArith.
Import ListNotations.
From Verif Require Import Model_BenchRun Model_ScenGen.
Local Open Scope nat_scope.
Local Open Scope list_scope.

Section Spec.
Context {St Geo Beh Exe Dyn Goal Cor Par Obs Val E : Type}.
Notation source := (@source St Geo Beh Exe Dyn Goal Cor Par Val E).
Notation agent := (@agent St Geo Beh Exe Dyn Goal Cor Par).

(** The lists the readers of one source returned. *)
Record out := mkOut {
  o_cor : Cor; o_states : list St; o_geos : list Geo; o_behs : list Beh; o_exes : list Exe;
  o_dyns : list Dyn; o_ctrl : list bool; o_goals : list Goal
}.

(** "The reader calls for source [s] returned the lists in [o]": each reader was
    called in some environment; the other readers are only asked if there are states. *)
Definition returned (idx : nat) (s : source) (o : out) : Prop :=
  src_corridor s = inl (o_cor o) /\
  (exists kw e e', rd_states s idx (o_cor o) e = (e', inl (o_states o, o_geos o, kw))) /\
  (o_states o <> [] ->
   (exists kw kw' e e', rd_beh s idx (o_cor o) (o_states o) kw e = (e', inl (o_behs o, kw'))) /\
   (exists kw kw' e e', rd_exe s idx (o_cor o) (o_states o) kw e = (e', inl (o_exes o, kw'))) /\
   (exists kw kw' e e', rd_dyn s idx (o_cor o) (o_states o) kw e = (e', inl (o_dyns o, kw'))) /\
   (exists kw kw' e e', rd_ctrl s idx (o_cor o) (o_states o) kw e = (e', inl (o_ctrl o, kw'))) /\
   (exists kw kw' e e', rd_goal s idx (o_cor o) (o_states o) (o_ctrl o) kw e = (e', inl (o_goals o, kw')))).

(** Number of agents of the sources before the i-th. *)
Definition offset (l : list out) (i : nat) : nat := list_sum (map (fun o => length (o_states o)) (firstn i l)).

(** Agent [a] is the k-th agent of source [s], whose readers returned [o]. *)
Definition is_kth (s : source) (o : out) (k : nat) (a : agent) : Prop :=
  nth_error (o_states o) k = Some (ag_state a) /\ nth_error (o_geos o) k = Some (ag_geo a) /\
  nth_error (o_behs o) k = Some (ag_beh a) /\ nth_error (o_exes o) k = Some (ag_exe a) /\
  nth_error (o_dyns o) k = Some (ag_dyn a) /\ nth_error (o_goals o) k = Some (ag_goal a) /\
  ag_params a = src_params s /\ ag_corridor a = Some (o_cor o).

(** The value of name [n] in the last of the dictionaries that has it. *)
Definition latest (l : list (dct Val)) (n : string) : option Val :=
  fold_left (fun v d => match dget d n with Some w => Some w | None => v end) l None.

(** A reader that never raises and returns as many items as there are states. *)
Definition well_behaved (s : source) : Prop :=
  (exists c, src_corridor s = inl c) /\
  (forall idx c e, exists e' sts gs kw, rd_states s idx c e = (e', inl (sts, gs, kw)) /\ length gs = length sts) /\
  (forall idx c sts kw e, exists e' l kw', rd_beh s idx c sts kw e = (e', inl (l, kw')) /\ length l = length sts) /\
  (forall idx c sts kw e, exists e' l kw', rd_exe s idx c sts kw e = (e', inl (l, kw')) /\ length l = length sts) /\
  (forall idx c sts kw e, exists e' l kw', rd_dyn s idx c sts kw e = (e', inl (l, kw')) /\ length l = length sts) /\
  (forall idx c sts kw e, exists e' l kw', rd_ctrl s idx c sts kw e = (e', inl (l, kw')) /\ length l = length sts) /\
  (forall idx c sts cs kw e, exists e' l kw', rd_goal s idx c sts cs kw e = (e', inl (l, kw')) /\ length l = length sts).

End Spec.

(* ------------------------------------------------------------------ *)

Section OverlapSpec.
(** The pair (a, o) is recorded under some key. *)
Definition recorded (d : coll) (a o : name) : Prop :=
  exists k l, In (k, l) d /\ In (a, o) l.

(** The members of [l] whose position satisfies [p], in order. *)
Fixpoint keep_from {A} (i : nat) (p : nat -> bool) (l : list A) : list A :=
  match l with [] => [] | x :: r => (if p i then [x] else []) ++ keep_from (S i) p r end.
Definition keep {A} (p : nat -> bool) (l : list A) : list A := keep_from 0 p l.

(** [l'] is [l] without the agents for which [gone] holds. *)
Definition without {St Geo} (gone : name -> bool) (l l' : list (list St * list Geo)) : Prop :=
  length l' = length l /\
  forall i sts gs, nth_error l i = Some (sts, gs) ->
    nth_error l' i = Some (keep (fun j => negb (gone (i, j))) sts, keep (fun j => negb (gone (i, j))) gs).

(** Agent (i, j) exists. *)
Definition exists_in {St Geo} (l : list (list St * list Geo)) (a : name) : Prop :=
  exists sts gs, nth_error l (fst a) = Some (sts, gs) /\ snd a < length sts.

(** What the geometry library and the bounding-box tree are trusted for. *)
Definition geometry_contract {St Geo} (l : list (list St * list Geo))
    (bb collide : name -> name -> bool) (overlap_values : name -> list name) : Prop :=
  (forall a b, bb a b = bb b a) /\ (forall a b, collide a b = collide b a) /\
  (forall a b, collide a b = true -> bb a b = true) /\
  (forall a o, In o (overlap_values a) <-> exists_in l o /\ bb a o = true).
End OverlapSpec.
