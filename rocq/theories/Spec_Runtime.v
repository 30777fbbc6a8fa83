(* Vocabulary for scenarios, their copies and recorded worlds. *)
From Coq Require Import String List NArith ZArith QArith Bool Arith.
From Verif Require Import Model_Map Model_Heap Model_Runtime.
Import ListNotations.
Local Open Scope nat_scope.
Local Open Scope list_scope.

Section Spec.
  Context {D H M : Type}.
  Notation heap := (heap D H).
  Notation hget := (hget D H).

  (* the references an object holds *)
  Definition refs (c : cell D H) : list loc :=
    match c with
    | CModel _ _ _ subs => subs
    | CAgent _ _ a => ha_bm H a :: ha_dm H a :: ha_em H a :: match ha_goal H a with Some g => [g] | None => [] end
    end.

  (* The object at [l] is a model (an agent) with this contents, down to the innermost models. *)
  Definition model_is (h : heap) (l : loc) (v : mval D) : Prop := exists n, read_model D H n h l = Some v.
  Definition agent_is (h : heap) (l : loc) (v : aval D H) : Prop := exists n, read_agent D H n h l = Some v.

  (* What a scenario describes. *)
  Record sval := mkSV { sv_agents : list (aval D H); sv_eval : list N; sv_file : string; sv_json : jdict;
                        sv_map : option M; sv_observer : option (mval D) }.
  Definition scen_is (m : mem D H) (s : scen M) (v : sval) : Prop :=
    Forall2 (agent_is (m_h D H m)) (s_agents M s) (sv_agents v) /\
    s_eval M s = sv_eval v /\ s_file M s = sv_file v /\ s_map M s = sv_map v /\
    (exists j, s_json M s = Some j /\ nth_error (m_j D H m) j = Some (sv_json v)) /\
    match s_observer M s, sv_observer v with
    | None, None => True
    | Some l, Some x => model_is (m_h D H m) l x
    | _, _ => False
    end.

  (* The same, if every agent and the observer went through pickling. *)
  Definition copied (pa : aval D H -> option (aval D H)) (pm : mval D -> option (mval D)) (v v' : sval) : Prop :=
    Forall2 (fun a b => pa a = Some b) (sv_agents v) (sv_agents v') /\
    sv_eval v' = sv_eval v /\ sv_file v' = sv_file v /\ sv_json v' = sv_json v /\ sv_map v' = sv_map v /\
    match sv_observer v, sv_observer v' with
    | None, None => True
    | Some a, Some b => pm a = Some b
    | _, _ => False
    end.

  (* [K]: the objects the generator's own scenarios are made of. Only these refer to each other: nobody
     else holds a reference to one of them. [J]: their parameter dictionaries. *)
  Record private (K : loc -> Prop) (J : nat -> Prop) (m : mem D H) (l : list (scen M)) : Prop := {
    pv_old : forall x, K x -> x < length (m_h D H m);
    pv_closed : forall x c y, K x -> hget (m_h D H m) x = Some c -> In y (refs c) -> K y;
    pv_hidden : forall x c y, ~ K x -> hget (m_h D H m) x = Some c -> In y (refs c) -> ~ K y;
    pv_agents : forall s x, In s l -> In x (s_agents M s) -> K x;
    pv_observer : forall s x, In s l -> s_observer M s = Some x -> K x;
    pv_json : forall s j, In s l -> s_json M s = Some j -> J j;
    pv_dicts : forall j, J j -> j < length (m_j D H m) }.

  (* What the rest of the program can do to the memory without a reference to a private object: create
     objects, write into objects that are not private, never obtain a reference to a private one. *)
  Definition client (K : loc -> Prop) (J : nat -> Prop) (m m' : mem D H) : Prop :=
    length (m_h D H m) <= length (m_h D H m') /\ length (m_j D H m) <= length (m_j D H m') /\
    (forall x, K x -> hget (m_h D H m') x = hget (m_h D H m) x) /\
    (forall j, J j -> nth_error (m_j D H m') j = nth_error (m_j D H m) j) /\
    (forall x c y, ~ K x -> hget (m_h D H m') x = Some c -> In y (refs c) -> ~ K y).

  (* A history of calls of the generator, interleaved with anything else the program does. *)
  Inductive call := CGet (i : Z) | CNext | CIter | CIterNext | COther.
  Inductive ret := RScen (s : scen M) (i : nat) | RRaise | RStop | RNone.
  Section Trace.
    Variables (pa : aval D H -> option (aval D H)) (pm : mval D -> option (mval D)).
    Variables (K : loc -> Prop) (J : nat -> Prop).
    Inductive gstep : mem D H -> gen M -> call -> ret -> mem D H -> gen M -> Prop :=
    | g_get m g i m' s : get_scenario D H M pa pm m g i = Some (m', s) -> gstep m g (CGet i) (RScen s 0) m' g
    | g_get_raise m g i : get_scenario D H M pa pm m g i = None -> gstep m g (CGet i) RRaise m g
    | g_next m g g' m' s i : get_next D H M pa pm m g = (g', Some (m', s, i)) -> gstep m g CNext (RScen s i) m' g'
    | g_next_raise m g g' : get_next D H M pa pm m g = (g', None) -> gstep m g CNext RRaise m g'
    | g_start m g : gstep m g CIter RNone m (iter_start M g)
    | g_inext m g g' m' s i : iter_next D H M pa pm m g = (g', inr (m', s, i)) -> gstep m g CIterNext (RScen s i) m' g'
    | g_inext_stop m g g' b : iter_next D H M pa pm m g = (g', inl b) ->
        gstep m g CIterNext (if b then RStop else RRaise) m g'
    | g_other m g m' : client K J m m' -> gstep m g COther RNone m' g.
    Inductive gtrace : mem D H -> gen M -> list (call * ret) -> mem D H -> gen M -> Prop :=
    | gt_nil m g : gtrace m g [] m g
    | gt_cons m g c r m1 g1 l m2 g2 : gstep m g c r m1 g1 -> gtrace m1 g1 l m2 g2 -> gtrace m g ((c, r) :: l) m2 g2.
  End Trace.

  (* What a client sees of an agent of a world, and of a world. *)
  Definition seen (h : heap) (w : hworld) (id : N) : option (N * list H * nat * list (option D)) :=
    match m_find id (hw_agents w) with
    | None => None
    | Some l => match hget h l with
                | Some (CAgent _ _ a) =>
                    Some (ha_id H a, ha_hist H a, ha_max H a,
                          [payload D H h (ha_bm H a); payload D H h (ha_dm H a); payload D H h (ha_em H a);
                           match ha_goal H a with None => None | Some g => payload D H h g end])
                | _ => None
                end
    end.
End Spec.
