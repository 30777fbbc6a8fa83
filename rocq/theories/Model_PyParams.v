(** The Python parameter server, /repo/bark/runtime/commons/parameters.py.

    Servers are objects: a heap of stores (dicts in insertion order), a server is a
    location.  A stored value is another server, a non-empty list of servers, or a plain
    value (numbers, strings, None, lists and dicts of them; lists mixing servers and
    other things are not modelled).  Descriptions and logging are not modelled.
    [None] as a result stands for a Python exception (AttributeError, ValueError, or
    RecursionError when the fuel of a recursion over the heap runs out). *)

From Coq Require Import String Ascii List Arith Lia Bool QArith ZArith.
Import ListNotations.
From Verif Require Import Model_BenchRun Model_Params.
Local Open Scope string_scope.
Local Open Scope nat_scope.
Local Open Scope list_scope.

Inductive atom := ABool (b : bool) | AInt (z : Z) | AFloat (q : Q) | AStr (s : string) | ANone.
Inductive json := JAtom (a : atom) | JList (l : list json) | JDict (d : list (string * json)).

Definition loc := nat.
Inductive pv := PVal (j : json) | PServer (l : loc) | PServers (ls : list loc).
Definition store := dct pv.
Definition heap := list store.

Fixpoint set_nth {A} (l : list A) (i : nat) (x : A) : list A :=
  match l, i with [], _ => [] | _ :: r, 0 => x :: r | y :: r, S i => y :: set_nth r i x end.

(** server.store[k] *)
Definition entry (h : heap) (l : loc) (k : string) : option pv :=
  match nth_error h l with Some st => dget st k | None => None end.
(** server.store[k] = v *)
Definition upd (h : heap) (l : loc) (k : string) (v : pv) : heap :=
  match nth_error h l with Some st => set_nth h l (dset st k v) | None => h end.
(** ParameterServer(): a fresh empty server *)
Definition alloc (h : heap) : heap * loc := (h ++ [[]], length h).

(* ------------------------------------------------------------------ *)
(** * Names *)

(** str.strip() for ASCII *)
Definition is_ws (c : ascii) : bool :=
  let n := nat_of_ascii c in ((9 <=? n) && (n <=? 13)) || ((28 <=? n) && (n <=? 32)).
Fixpoint lstrip (s : string) : string :=
  match s with EmptyString => EmptyString | String c r => if is_ws c then lstrip r else s end.
Fixpoint rstrip (s : string) : string :=
  match s with
  | EmptyString => EmptyString
  | String c r => match rstrip r with
                  | EmptyString => if is_ws c then EmptyString else String c EmptyString
                  | t => String c t
                  end
  end.
Definition strip (s : string) : string := rstrip (lstrip s).

(** name.split("::") *)
Fixpoint split_all (fuel : nat) (s : string) : list string :=
  match fuel with
  | 0 => [s]
  | S n => match split_first s with Some (c, r) => c :: split_all n r | None => [s] end
  end.
(** 287 *)
Definition hierarchy_of (s : string) : list string := map strip (split_all (String.length s) s).

(** key.rsplit("::", 1): at the last occurrence *)
Fixpoint rsplit (s : string) : option (string * string) :=
  match s with
  | EmptyString => None
  | String a s' =>
      match rsplit s' with
      | Some (p, q) => Some (String a p, q)
      | None => match s' with
                | String b s'' => if (Ascii.eqb a ":" && Ascii.eqb b ":")%bool then Some (EmptyString, s'') else None
                | EmptyString => None
                end
      end
  end.

(* ------------------------------------------------------------------ *)
(** * Reading and writing *)

(** 227-249 get_val_iter with default [d] *)
Fixpoint get_val_iter (h : heap) (l : loc) (hier : list string) (d : pv) : option (heap * pv) :=
  match hier with
  | [] => None
  | k :: r =>
      match entry h l k with
      | Some (PServer c) => get_val_iter h c r d
      | Some v => Some (h, v)
      | None => match r with
                | [] => Some (upd h l k d, d)
                | _ => let (h1, c) := alloc h in get_val_iter (upd h1 l k (PServer c)) c r d
                end
      end
  end.
(** 286-299 GetValFromString, the typed getters 328-347 *)
Definition get_typed (h : heap) (l : loc) (name : string) (d : pv) : option (heap * pv) :=
  get_val_iter h l (hierarchy_of name) d.

Definition is_dict (j : json) : bool := match j with JDict _ => true | _ => false end.

(** 147-162 ConvertToParam for one item; new servers for dicts and for lists of dicts *)
Fixpoint conv_item (h : heap) (l : loc) (k : string) (j : json) {struct j} : option heap :=
  match j with
  | JDict d =>
      let c := length h in
      match (fix items (h : heap) (d : list (string * json)) {struct d} : option heap :=
               match d with
               | [] => Some h
               | (k', j') :: r => match conv_item h c k' j' with Some h' => items h' r | None => None end
               end) (h ++ [[]]) d with
      | Some h2 => Some (upd h2 l k (PServer c))
      | None => None
      end
  | JList js =>
      if forallb is_dict js then
        match (fix elems (h : heap) (js : list json) {struct js} : option (heap * list loc) :=
                 match js with
                 | [] => Some (h, [])
                 | JDict d :: r =>
                     let c := length h in
                     match (fix items (h : heap) (d : list (string * json)) {struct d} : option heap :=
                              match d with
                              | [] => Some h
                              | (k', j') :: r => match conv_item h c k' j' with Some h' => items h' r | None => None end
                              end) (h ++ [[]]) d with
                     | Some h1 => match elems h1 r with Some (h2, cs) => Some (h2, c :: cs) | None => None end
                     | None => None
                     end
                 | _ :: r => None
                 end) h js with
        | Some (h2, []) => Some (upd h2 l k (PVal (JList [])))
        | Some (h2, cs) => Some (upd h2 l k (PServers cs))
        | None => None
        end
      else match get_typed h l k (PVal j) with Some (h', _) => Some h' | None => None end
  | JAtom _ => match get_typed h l k (PVal j) with Some (h', _) => Some h' | None => None end
  end.
Fixpoint conv_items (h : heap) (l : loc) (d : list (string * json)) : option heap :=
  match d with
  | [] => Some h
  | (k, j) :: r => match conv_item h l k j with Some h' => conv_items h' l r | None => None end
  end.
(** 15-26 ParameterServer(json=d) *)
Definition of_json (h : heap) (d : list (string * json)) : option (heap * loc) :=
  let (h1, l) := alloc h in match conv_items h1 l d with Some h2 => Some (h2, l) | None => None end.
Fixpoint of_jsons (h : heap) (js : list json) : option (heap * list loc) :=
  match js with
  | [] => Some (h, [])
  | JDict d :: r => match of_json h d with
                    | Some (h1, c) => match of_jsons h1 r with Some (h2, cs) => Some (h2, c :: cs) | None => None end
                    | None => None
                    end
  | _ :: r => None
  end.

(** 44-52, 100-107: dicts and lists of dicts become servers *)
Definition to_value (h : heap) (v : pv) : option (heap * pv) :=
  match v with
  | PVal (JDict d) => match of_json h d with Some (h', c) => Some (h', PServer c) | None => None end
  | PVal (JList (j :: js)) =>
      if forallb is_dict (j :: js) then
        match of_jsons h (j :: js) with Some (h', cs) => Some (h', PServers cs) | None => None end
      else Some (h, v)
  | _ => Some (h, v)
  end.

(** 29-59 p[k, description, default]; without default it is "MISSING" *)
Definition get_default (h : heap) (l : loc) (k : string) (d : pv) : option (heap * pv) :=
  match entry h l k with
  | Some v => Some (h, v)
  | None => match to_value h d with Some (h', v) => Some (upd h' l k v, v) | None => None end
  end.
(** p[k] *)
Definition get_item (h : heap) (l : loc) (k : string) : heap * pv :=
  match entry h l k with
  | Some v => (h, v)
  | None => let (h1, c) := alloc h in (upd h1 l k (PServer c), PServer c)
  end.

(** What AddChild returns: a value, or the list of results for a list of children. *)
Inductive children := One (v : pv) | Many (l : list children).

(** 364-391 AddChild *)
Fixpoint add_child (fuel : nat) (h : heap) (l : loc) (name : string) (delete : bool) {struct fuel}
    : option (heap * children) :=
  match fuel with
  | 0 => None
  | S n =>
      let (cn, rest) := match split_first name with Some (c, r) => (c, r) | None => (name, EmptyString) end in
      let '(h1, child) :=
        match entry h l cn with
        | Some v => if negb delete || negb (String.eqb rest EmptyString) then (h, v)
                    else (upd (h ++ [[]]) l cn (PServer (length h)), PServer (length h))
        | None => (upd (h ++ [[]]) l cn (PServer (length h)), PServer (length h))
        end in
      if String.eqb rest EmptyString then Some (h1, One child)
      else match child with
           | PServer c => add_child n h1 c rest delete
           | PServers cs =>
               match (fix each (h : heap) (cs : list loc) : option (heap * list children) :=
                        match cs with
                        | [] => Some (h, [])
                        | c :: r => match add_child n h c rest delete with
                                    | Some (h', x) => match each h' r with Some (h'', xs) => Some (h'', x :: xs) | None => None end
                                    | None => None
                                    end
                        end) h1 cs with
               | Some (h2, xs) => Some (h2, Many xs)
               | None => None
               end
           | PVal (JList []) => Some (h1, Many [])
           | PVal _ => None
           end
  end.
Definition AddChild (h : heap) (l : loc) (name : string) (delete : bool) := add_child (S (String.length name)) h l name delete.

(** 112-124 *)
Fixpoint upd_all (h : heap) (cs : list loc) (k : string) (v : pv) : heap :=
  match cs with [] => h | c :: r => upd_all (upd h c k v) r k v end.
Fixpoint upd_each (h : heap) (cs : list children) (k : string) (v : pv) : option heap :=
  match cs with
  | [] => Some h
  | One (PServer c) :: r => upd_each (upd h c k v) r k v
  | _ => None
  end.
Definition set_hier (h : heap) (l : loc) (key : string) (v : pv) : option heap :=
  match rsplit key with
  | None => Some (upd h l key v)
  | Some (pre, k) =>
      match AddChild h l pre false with
      | None => None
      | Some (h1, One (PServer c)) => Some (upd h1 c k v)
      | Some (h1, One (PServers cs)) => Some (upd_all h1 cs k v)
      | Some (h1, One (PVal (JList []))) => Some h1
      | Some (h1, One (PVal _)) => None
      | Some (h1, Many cs) => upd_each h1 cs k v
      end
  end.
(** 93-110 p[key] = v, key a string *)
Definition set_item (h : heap) (l : loc) (key : string) (v : pv) : option heap :=
  match to_value h v with Some (h1, v1) => set_hier h1 l key v1 | None => None end.
(** 93-110 p[key, description] = v: the value is converted and dropped *)
Definition set_tuple (h : heap) (l : loc) (key : string) (v : pv) : option heap :=
  match to_value h v with Some (h1, _) => Some h1 | None => None end.
(** 126-128 *)
Fixpoint ddel {V} (d : dct V) (k : string) : dct V :=
  match d with [] => [] | (j, w) :: r => if String.eqb j k then ddel r k else (j, w) :: ddel r k end.
Definition del_item (h : heap) (l : loc) (k : string) : heap :=
  match nth_error h l with Some st => set_nth h l (ddel st k) | None => h end.

(* ------------------------------------------------------------------ *)
(** * Conversion *)

Definition missing := JAtom (AStr "MISSING").

Fixpoint omap {A B} (f : A -> option B) (l : list A) : option (list B) :=
  match l with
  | [] => Some []
  | x :: r => match f x, omap f r with Some y, Some ys => Some (y :: ys) | _, _ => None end
  end.

(** 168-196 ConvertToDict() *)
Fixpoint to_dict (fuel : nat) (h : heap) (l : loc) : option (list (string * json)) :=
  match fuel with
  | 0 => None
  | S n =>
      match nth_error h l with
      | None => None
      | Some st =>
          omap (fun kv : string * pv =>
            match snd kv with
            | PVal j => Some (fst kv, j)
            | PServer c => match to_dict n h c with
                           | Some [] => Some (fst kv, missing)
                           | Some d => Some (fst kv, JDict d)
                           | None => None
                           end
            | PServers cs => match omap (to_dict n h) cs with
                             | Some ds => Some (fst kv, JList (map JDict ds))
                             | None => None
                             end
            end) st
      end
  end.

(** 164-166 clone() *)
Definition clone (fuel : nat) (h : heap) (l : loc) : option (heap * loc) :=
  match to_dict fuel h l with Some d => of_json h d | None => None end.

(** 252-268: what the C++ side can take *)
Definition is_float (j : json) : bool := match j with JAtom (AFloat _) => true | _ => false end.
Definition is_float_list (j : json) : bool := match j with JList l => forallb is_float l | _ => false end.
Definition transferable (j : json) : bool :=
  match j with
  | JAtom ANone => false
  | JAtom _ => true
  | JList l => forallb is_float l || forallb is_float_list l
  | JDict _ => false
  end.
(** 251-284 GetCondensedParamList *)
Fixpoint condensed (fuel : nat) (h : heap) (l : loc) : option (list (string * json)) :=
  match fuel with
  | 0 => None
  | S n =>
      match nth_error h l with
      | None => None
      | Some st =>
          match omap (fun kv : string * pv =>
            match snd kv with
            | PVal j => Some (if transferable j then [(fst kv, j)] else [])
            | PServer c => match condensed n h c with
                           | Some d => Some (map (fun x => ((fst kv ++ "::" ++ fst x)%string, snd x))
                                               (filter (fun x => transferable (snd x)) d))
                           | None => None
                           end
            | PServers _ => Some []
            end) st with
          | Some x => Some (concat x)
          | None => None
          end
      end
  end.

(* ------------------------------------------------------------------ *)
(** * Comparing, merging, searching *)

(** 64-77 AppendParamServer *)
Fixpoint append_keys (app : heap -> loc -> loc -> option heap) (h : heap) (l l2 : loc) (ow : bool) (ks : list string) : option heap :=
  match ks with
  | [] => Some h
  | k :: r =>
      match entry h l2 k with
      | None => None
      | Some vo =>
          match (match entry h l k with
                 | Some (PServer c) => match vo with
                                       | PServer c2 => app h c c2
                                       | _ => if ow then set_item h l k vo else Some h
                                       end
                 | Some _ => if ow then set_item h l k vo else Some h
                 | None => set_item h l k vo
                 end) with
          | Some h' => append_keys app h' l l2 ow r
          | None => None
          end
      end
  end.
Fixpoint append (fuel : nat) (ow : bool) (h : heap) (l l2 : loc) : option heap :=
  match fuel with
  | 0 => None
  | S n => match nth_error h l2 with
           | Some st => append_keys (append n ow) h l l2 ow (map fst st)
           | None => None
           end
  end.

(** 79-91 FindKey; a found key "" counts as not found *)
Fixpoint find_key (fuel : nat) (h : heap) (l : loc) (name : string) : option (option string) :=
  match fuel with
  | 0 => None
  | S n =>
      match nth_error h l with
      | None => None
      | Some st =>
          (fix each (st : store) : option (option string) :=
             match st with
             | [] => Some None
             | (k, PServer c) :: r =>
                 match find_key n h c name with
                 | None => None
                 | Some (Some f) => if String.eqb f EmptyString then each r else Some (Some (k ++ "::" ++ f)%string)
                 | Some None => each r
                 end
             | (k, _) :: r => if String.eqb name k then Some (Some name) else each r
             end) st
      end
  end.

Section Equal.
Variable py_eq : json -> json -> bool.        (* Python's == on plain values *)
Definition pv_eq (a b : pv) : bool :=
  match a, b with
  | PVal x, PVal y => py_eq x y
  | PServers x, PServers y => if list_eq_dec Nat.eq_dec x y then true else false   (* identity of the members *)
  | _, _ => false
  end.
(** 301-322 HasEqualParamsAs: true if there is a difference; the differing parameters
    are collected in the server [u] *)
Fixpoint has_diff (fuel : nat) (h : heap) (l l2 u : loc) : option (heap * bool) :=
  match fuel with
  | 0 => None
  | S n =>
      match nth_error h l2 with
      | None => None
      | Some st2 =>
          match (fix each (h : heap) (es : store) : option heap :=
                   match es with
                   | [] => Some h
                   | (k, v) :: r =>
                       match (match entry h l k with
                              | None => set_item h u k v
                              | Some (PServer c) =>
                                  match v with
                                  | PServer c2 =>
                                      let (h1, u1) := alloc h in
                                      match has_diff n h1 c c2 u1 with
                                      | Some (h2, true) => set_item h2 u k (PServer u1)
                                      | Some (h2, false) => Some h2
                                      | None => None
                                      end
                                  | _ => set_item h u k v
                                  end
                              | Some w => if pv_eq w v then Some h else set_item h u k v
                              end) with
                       | Some h' => each h' r
                       | None => None
                       end
                   end) h st2 with
          | Some h' => match nth_error h' u with
                       | Some [] => Some (h', false)
                       | Some _ => Some (h', true)
                       | None => None
                       end
          | None => None
          end
      end
  end.
End Equal.
