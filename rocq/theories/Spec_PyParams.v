(** What a user of the Python parameter server sees. *)

From Coq Require Import String Ascii List Arith Lia Bool QArith ZArith.
Import ListNotations.
From Verif Require Import Model_BenchRun Model_Params Model_PyParams.
Local Open Scope string_scope.
Local Open Scope nat_scope.
Local Open Scope list_scope.

(** A name component: not empty, no colon, no surrounding blanks. *)
Fixpoint has_colon (s : string) : bool :=
  match s with EmptyString => false | String c r => Ascii.eqb c ":" || has_colon r end.
Definition clean (s : string) : Prop := s <> EmptyString /\ has_colon s = false /\ strip s = s.

(** "A::B::c" *)
Fixpoint join (ks : list string) : string :=
  match ks with [] => EmptyString | [k] => k | k :: r => (k ++ "::" ++ join r)%string end.

(** p[k1][k2]...[kn], all of them servers. *)
Fixpoint walk (h : heap) (l : loc) (ks : list string) : option loc :=
  match ks with
  | [] => Some l
  | k :: r => match entry h l k with Some (PServer c) => walk h c r | _ => None end
  end.

(** As far as the servers named by the path exist they are single servers. *)
Fixpoint plain (h : heap) (l : loc) (ks : list string) : Prop :=
  match ks with
  | [] => True
  | k :: r => match entry h l k with Some (PServer c) => plain h c r | Some _ => False | None => True end
  end.

(** All servers referred to exist. *)
Definition pv_ok (n : nat) (v : pv) : Prop :=
  match v with PVal _ => True | PServer c => c < n | PServers cs => Forall (fun c => c < n) cs end.
Definition wf (h : heap) : Prop := forall l k v, entry h l k = Some v -> pv_ok (length h) v.

(** The path does not come back to its end. *)
Definition no_return (h : heap) (l : loc) (ks : list string) : Prop :=
  forall c i, walk h l ks = Some c -> i < length ks -> walk h l (firstn i ks) <> Some c.

(** Nothing was changed from [h] to [h'] but the missing servers on the path were made. *)
Definition only_makes (h h' : heap) (l : loc) (ks : list string) : Prop :=
  length h <= length h' /\
  (forall l' k w, entry h l' k = Some w -> entry h' l' k = Some w) /\
  (forall l' k w, l' < length h -> entry h' l' k = Some w -> entry h l' k = Some w \/
     exists i c, walk h l (firstn i ks) = Some l' /\ nth_error ks i = Some k /\ w = PServer c /\ length h <= c) /\
  wf h'.

Definition absent (h : heap) (l : loc) (ks : list string) (k : string) : Prop :=
  forall c, walk h l ks = Some c -> entry h c k = None.

(** What reading or writing [k] in the group [ks] may do to the servers. *)
Definition only_puts (h h' : heap) (l : loc) (ks : list string) (c : loc) (k : string) (v : pv) : Prop :=
  length h <= length h' /\
  (forall l' k' w, entry h l' k' = Some w -> (l', k') <> (c, k) -> entry h' l' k' = Some w) /\
  (forall l' k' w, l' < length h -> entry h' l' k' = Some w ->
     entry h l' k' = Some w \/ (l', k', w) = (c, k, v) \/
     exists i s, walk h l (firstn i ks) = Some l' /\ nth_error ks i = Some k' /\ w = PServer s /\ length h <= s) /\
  wf h'.

(** Values that are stored as they are: anything but a dict and a list of dicts. *)
Definition stored_as_is (v : pv) : Prop := forall h, to_value h v = Some (h, v).

(** The server at [l] holds the dictionary [d]; the list collects the servers that make
    it up.  An empty server holds the empty dictionary. *)
Definition plain_value (j : json) : bool :=
  match j with JDict _ => false | JList (x :: l) => negb (forallb is_dict (x :: l)) | _ => true end.

Inductive holds (h : heap) : loc -> list (string * json) -> list loc -> Prop :=
| holds_server l st d f : nth_error h l = Some st -> holds_entries h st d f -> holds h l d (l :: f)
with holds_entries (h : heap) : store -> list (string * json) -> list loc -> Prop :=
| he_nil : holds_entries h [] [] []
| he_cons k v j f st d fs : holds_value h v j f -> holds_entries h st d fs ->
    holds_entries h ((k, v) :: st) ((k, j) :: d) (f ++ fs)
with holds_value (h : heap) : pv -> json -> list loc -> Prop :=
| hv_val j : plain_value j = true -> holds_value h (PVal j) j []
| hv_server c d f : holds h c d f -> holds_value h (PServer c) (JDict d) f
| hv_servers c cs d ds f : holds_list h (c :: cs) (d :: ds) f -> holds_value h (PServers (c :: cs)) (JList (map JDict (d :: ds))) f
with holds_list (h : heap) : list loc -> list (list (string * json)) -> list loc -> Prop :=
| hl_nil : holds_list h [] [] []
| hl_cons c cs d ds f fs : holds h c d f -> holds_list h cs ds fs -> holds_list h (c :: cs) (d :: ds) (f ++ fs).

Scheme holds_mind := Induction for holds Sort Prop
with holds_entries_mind := Induction for holds_entries Sort Prop
with holds_value_mind := Induction for holds_value Sort Prop
with holds_list_mind := Induction for holds_list Sort Prop.
Combined Scheme holds_mut from holds_mind, holds_entries_mind, holds_value_mind, holds_list_mind.

(** Dictionaries whose keys are different clean names, at every level (also in plain
    values nothing is demanded). *)
Inductive clean_dict : list (string * json) -> Prop :=
| cd_nil : clean_dict []
| cd_cons k j d : clean k -> ~ In k (map fst d) -> clean_value j -> clean_dict d -> clean_dict ((k, j) :: d)
with clean_value : json -> Prop :=
| cv_plain j : plain_value j = true -> clean_value j
| cv_dict d : clean_dict d -> clean_value (JDict d)
| cv_dicts d ds : clean_dicts (d :: ds) -> clean_value (JList (map JDict (d :: ds)))
with clean_dicts : list (list (string * json)) -> Prop :=
| cds_nil : clean_dicts []
| cds_cons d ds : clean_dict d -> clean_dicts ds -> clean_dicts (d :: ds).

Scheme clean_dict_mind := Induction for clean_dict Sort Prop
with clean_value_mind := Induction for clean_value Sort Prop
with clean_dicts_mind := Induction for clean_dicts Sort Prop.
Combined Scheme clean_mut from clean_dict_mind, clean_value_mind, clean_dicts_mind.

(** Empty groups are written as the string "MISSING" (not those that are members of a
    list of groups). *)
Fixpoint marked (j : json) : json :=
  match j with
  | JDict [] => missing
  | JDict d => JDict (map (fun kv => (fst kv, marked (snd kv))) d)
  | JList l => if forallb is_dict l
               then JList (map (fun x => match x with JDict d => JDict (map (fun kv => (fst kv, marked (snd kv))) d) | _ => x end) l)
               else j
  | _ => j
  end.
Definition marked_dict (d : list (string * json)) := map (fun kv => (fst kv, marked (snd kv))) d.

(** The plain value stored under a path of a dictionary. *)
Fixpoint jget (d : list (string * json)) (k : string) : option json :=
  match d with [] => None | (j, w) :: r => if String.eqb j k then Some w else jget r k end.
Fixpoint lookup (j : json) (ks : list string) : option json :=
  match ks with
  | [] => Some j
  | k :: r => match j with JDict d => match jget d k with Some x => lookup x r | None => None end | _ => None end
  end.
(** A parameter: something that is neither a group nor a list of groups. *)
Definition param_at (d : list (string * json)) (ks : list string) (j : json) : Prop :=
  lookup (JDict d) ks = Some j /\ plain_value j = true.

(** What the C++ side understands: booleans, numbers, strings, lists of floats and lists
    of lists of floats. *)
Inductive sendable : json -> Prop :=
| sd_bool b : sendable (JAtom (ABool b))
| sd_int z : sendable (JAtom (AInt z))
| sd_float q : sendable (JAtom (AFloat q))
| sd_str s : sendable (JAtom (AStr s))
| sd_floats l : sendable (JList (map (fun q => JAtom (AFloat q)) l))
| sd_float_lists l : sendable (JList (map (fun r => JList (map (fun q => JAtom (AFloat q)) r)) l)).

(** No group is empty (members of lists of groups may be). *)
Inductive filled : json -> Prop :=
| fl_atom a : filled (JAtom a)
| fl_list l : forallb is_dict l = false -> filled (JList l)
| fl_dict d : d <> [] -> Forall filled (map snd d) -> filled (JDict d)
| fl_dicts ds : Forall filled (concat (map (map snd) ds)) -> filled (JList (map JDict ds)).
Definition filled_dict (d : list (string * json)) : Prop := Forall filled (map snd d).

(** The two dictionaries differ as far as the second one is concerned: a key the first one
    lacks, a group against something else, unequal parameters ([same] decides), lists of
    groups (never the same in different servers). *)
Inductive differs (same : json -> json -> bool) : list (string * json) -> list (string * json) -> Prop :=
| df_missing d1 d2 k y : jget d2 k = Some y -> jget d1 k = None -> differs same d1 d2
| df_at d1 d2 k x y : jget d1 k = Some x -> jget d2 k = Some y -> differs_value same x y -> differs same d1 d2
with differs_value (same : json -> json -> bool) : json -> json -> Prop :=
| dv_groups e1 e2 : differs same e1 e2 -> differs_value same (JDict e1) (JDict e2)
| dv_kind x y : is_dict x <> is_dict y -> differs_value same x y
| dv_plain x y : plain_value x = true -> plain_value y = true -> same x y = false -> differs_value same x y
| dv_lists x y : is_dict x = false -> is_dict y = false -> plain_value x = false \/ plain_value y = false -> differs_value same x y.

(** [d] is [d1] with [d2] added: groups are merged, other parameters in both are those of
    [d1], or of [d2] if overwriting. *)
Inductive merged (ow : bool) : list (string * json) -> list (string * json) -> list (string * json) -> Prop :=
| mg_all d1 d2 d : (forall k, merged_at ow (jget d1 k) (jget d2 k) (jget d k)) -> merged ow d1 d2 d
with merged_at (ow : bool) : option json -> option json -> option json -> Prop :=
| ma_left x : merged_at ow x None x
| ma_right y : merged_at ow None y y
| ma_groups e1 e2 e : merged ow e1 e2 e -> merged_at ow (Some (JDict e1)) (Some (JDict e2)) (Some (JDict e))
| ma_clash x y : is_dict x && is_dict y = false -> merged_at ow (Some x) (Some y) (Some (if ow then y else x)).

(** Groups of groups and parameters, without lists of groups and empty groups. *)
Inductive simple : json -> Prop :=
| sm_plain j : plain_value j = true -> simple j
| sm_group d : d <> [] -> simple_dict d -> simple (JDict d)
with simple_dict : list (string * json) -> Prop :=
| smd_nil : simple_dict []
| smd_cons k j d : simple j -> simple_dict d -> simple_dict ((k, j) :: d).
Scheme simple_mind := Induction for simple Sort Prop
with simple_dict_mind := Induction for simple_dict Sort Prop.
Combined Scheme simple_mut from simple_mind, simple_dict_mind.
