(** Model of the C++ parameter store: bark/commons/params/setter_params.hpp,
    setter_params.cpp and Params::operator== of params.cpp.

    Simplifications: log output is dropped; the description argument (unused by
    the code) is dropped; [double] is an arbitrary type [D] (values are only
    stored, returned and, in operator==, compared); shared_ptr children are
    modelled as sub-trees, and a pointer returned by AddChild as the path of
    child names leading to the sub-tree (children are never replaced or
    removed, so the path stays valid). *)
From Coq Require Import String Ascii List Bool Arith ZArith.
Import ListNotations.
Local Open Scope string_scope.

(** params.hpp:27-28: boost::variant<bool,double,int,string,ListListFloat,ListFloat>. *)
Inductive pval (D : Type) : Type :=
| PBool (b : bool)
| PReal (d : D)
| PInt (z : Z)
| PString (s : string)
| PListList (l : list (list D))
| PList (l : list D).
Arguments PBool {D}. Arguments PReal {D}. Arguments PInt {D}.
Arguments PString {D}. Arguments PListList {D}. Arguments PList {D}.

(** Which of the six maps of SetterParams (setter_params.hpp:185-192). *)
Inductive ptype := TBool | TReal | TInt | TString | TListList | TList.

Definition ptype_eqb (a b : ptype) : bool :=
  match a, b with
  | TBool, TBool | TReal, TReal | TInt, TInt | TString, TString
  | TListList, TListList | TList, TList => true
  | _, _ => false
  end.

Definition ptype_of {D} (v : pval D) : ptype :=
  match v with
  | PBool _ => TBool | PReal _ => TReal | PInt _ => TInt
  | PString _ => TString | PListList _ => TListList | PList _ => TList
  end.

(** setter_params.hpp:184-192: childs_ and the six maps. The six maps are kept
    in one association list; the map an entry lives in is the type of its
    value. *)
Inductive sparams (D : Type) : Type :=
| SParams (own : list (string * pval D)) (childs : list (string * sparams D)).
Arguments SParams {D}.

Definition own {D} (t : sparams D) := let (o, _) := t in o.
Definition childs {D} (t : sparams D) := let (_, c) := t in c.

(** setter_params.hpp:23-29: a fresh store is empty. *)
Definition empty_params {D} : sparams D := SParams [] [].

(** std::string::find("::") followed by substr(0,pos) and erase(0,pos+2), as in
    setter_params.hpp:104-109, 133-139 and 168-174: split at the leftmost "::". *)
Fixpoint split_first (s : string) : option (string * string) :=
  match s with
  | EmptyString => None
  | String a s' =>
      match s' with
      | String b s'' =>
          if (Ascii.eqb a ":" && Ascii.eqb b ":")%bool then Some ("", s'')
          else match split_first s' with
               | Some (c, r) => Some (String a c, r)
               | None => None
               end
      | EmptyString => None
      end
  end.

Section Store.
  Context {D : Type}.

  (** operator[] = on one of the maps (setter_params.hpp:144). *)
  Fixpoint put_own (l : list (string * pval D)) (n : string) (v : pval D)
    : list (string * pval D) :=
    match l with
    | [] => [(n, v)]
    | (n', v') :: r =>
        if (String.eqb n n' && ptype_eqb (ptype_of v) (ptype_of v'))%bool
        then (n, v) :: r
        else (n', v') :: put_own r n v
    end.

  (** find() on one of the maps (setter_params.hpp:161). *)
  Fixpoint find_own (l : list (string * pval D)) (ty : ptype) (n : string)
    : option (pval D) :=
    match l with
    | [] => None
    | (n', v') :: r =>
        if (String.eqb n n' && ptype_eqb ty (ptype_of v'))%bool
        then Some v' else find_own r ty n
    end.

  (** setter_params.hpp:111-118: the existing child of that name or a new one. *)
  Fixpoint child_or_new (l : list (string * sparams D)) (c : string) : sparams D :=
    match l with
    | [] => empty_params
    | (c', t) :: r => if String.eqb c c' then t else child_or_new r c
    end.

  (** The child as it is after the call made on it; a missing one is inserted
      (childs_[child_name] = child, setter_params.hpp:117). *)
  Fixpoint put_child (l : list (string * sparams D)) (c : string) (t : sparams D)
    : list (string * sparams D) :=
    match l with
    | [] => [(c, t)]
    | (c', t') :: r => if String.eqb c c' then (c, t) :: r
                       else (c', t') :: put_child r c t
    end.

  (** set_parameter, setter_params.hpp:129-145. The recursion is on the length
      of the name; [fuel] bounds it and [set_param] supplies enough. *)
  Fixpoint set_parameter (fuel : nat) (t : sparams D) (n : string) (v : pval D)
    : sparams D :=
    match fuel with
    | O => t
    | S f =>
        match split_first n with
        | Some (c, r) =>
            SParams (own t)
                    (put_child (childs t) c
                               (set_parameter f (child_or_new (childs t) c) r v))
        | None => SParams (put_own (own t) n v) (childs t)
        end
    end.
  Definition set_param t n v := set_parameter (S (String.length n)) t n v.

  (** get_parameter / get_parameter_recursive, setter_params.hpp:147-182: the
      returned value (None: "not found", the caller's default is returned) and
      the store afterwards (AddChild may have created empty children). *)
  Fixpoint get_parameter_recursive (fuel : nat) (t : sparams D) (ty : ptype)
           (n : string) : option (pval D) * sparams D :=
    match fuel with
    | O => (None, t)
    | S f =>
        match find_own (own t) ty n with
        | Some v => (Some v, t)
        | None =>
            match split_first n with
            | Some (c, r) =>
                let (v, ch) :=
                    get_parameter_recursive f (child_or_new (childs t) c) ty r in
                (v, SParams (own t) (put_child (childs t) c ch))
            | None => (None, t)
            end
        end
    end.
  Definition get_param (t : sparams D) (n : string) (d : pval D)
    : pval D * sparams D :=
    let (o, t') := get_parameter_recursive (S (String.length n)) t (ptype_of d) n in
    (match o with Some v => v | None => d end, t').

  (** AddChild, setter_params.hpp:98-125: the store afterwards and the path of
      the child that is returned. *)
  Fixpoint add_child_rec (fuel : nat) (t : sparams D) (n : string)
    : sparams D * list string :=
    match fuel with
    | O => (t, [])
    | S f =>
        let (c, r) := match split_first n with
                      | Some (c, r) => (c, r) | None => (n, "") end in
        let ch := child_or_new (childs t) c in
        if String.eqb r "" then
          (SParams (own t) (put_child (childs t) c ch), [c])
        else
          let (ch', p) := add_child_rec f ch r in
          (SParams (own t) (put_child (childs t) c ch'), c :: p)
    end.
  Definition add_child t n := add_child_rec (S (String.length n)) t n.

  (** GetCondensedParamList, setter_params.cpp:22-70: own parameters map by map,
      then every child's list with "child::" in front. *)
  Definition of_type (ty : ptype) (l : list (string * pval D)) :=
    filter (fun e => ptype_eqb ty (ptype_of (snd e))) l.

  Fixpoint condensed (t : sparams D) : list (string * pval D) :=
    match t with
    | SParams o ch =>
        (of_type TBool o ++ of_type TInt o ++ of_type TReal o ++
        of_type TString o ++ of_type TListList o ++ of_type TList o ++
        (fix go (l : list (string * sparams D)) :=
           match l with
           | [] => []
           | (c, t') :: r =>
               map (fun e => ((c ++ "::" ++ fst e)%string, snd e)) (condensed t')
               ++ go r
           end) ch)%list
    end.

  (** SetterParams(log_if_default, param_list), setter_params.cpp:13-21, with
      ParamVisitor dispatching on the variant (setter_params.hpp:197-216). *)
  Definition of_list (l : list (string * pval D)) : sparams D :=
    fold_left (fun t e => set_param t (fst e) (snd e)) l empty_params.

  (** A call made through the pointer to the sub-store at path [p]. *)
  Fixpoint at_path {X} (p : list string) (f : sparams D -> X * sparams D)
           (t : sparams D) : X * sparams D :=
    match p with
    | [] => f t
    | c :: p' =>
        let (x, ch) := at_path p' f (child_or_new (childs t) c) in
        (x, SParams (own t) (put_child (childs t) c ch))
    end.

  (** Client programs: calls through the root (handle 0) or through pointers
      obtained from earlier AddChild calls (handle k = k-th AddChild). *)
  Inductive pop :=
  | OpSet (h : nat) (n : string) (v : pval D)
  | OpGet (h : nat) (n : string) (d : pval D)
  | OpAdd (h : nat) (n : string).

  Record pstate := { ptree : sparams D; phandles : list (list string) }.
  Definition pstart : pstate := {| ptree := empty_params; phandles := [[]] |}.

  (** One call: the value returned (for the getters) and the new state. *)
  Definition pstep (s : pstate) (o : pop) : option (pval D) * pstate :=
    match o with
    | OpSet h n v =>
        match nth_error (phandles s) h with
        | Some p => let (_, t') := at_path p (fun t => (tt, set_param t n v)) (ptree s) in
                    (None, {| ptree := t'; phandles := phandles s |})
        | None => (None, s)
        end
    | OpGet h n d =>
        match nth_error (phandles s) h with
        | Some p => let (v, t') := at_path p (fun t => get_param t n d) (ptree s) in
                    (Some v, {| ptree := t'; phandles := phandles s |})
        | None => (None, s)
        end
    | OpAdd h n =>
        match nth_error (phandles s) h with
        | Some p =>
            let (q, t') := at_path p (fun t => let (t', q) := add_child t n in (q, t'))
                                   (ptree s) in
            (None, {| ptree := t'; phandles := (phandles s ++ [(p ++ q)%list])%list |})
        | None => (None, s)
        end
    end.

  Fixpoint prun (s : pstate) (l : list pop) : list (option (pval D)) * pstate :=
    match l with
    | [] => ([], s)
    | o :: r => let (x, s') := pstep s o in
                let (xs, s'') := prun s' r in (x :: xs, s'')
    end.
End Store.
Arguments pop : clear implicits.
Arguments pstate : clear implicits.

(** Params::operator==, params.cpp:59-83. std::sort is not stable and only
    orders by name, so each side may come out as any name-sorted permutation of
    its condensed list; the relation says which results are possible. *)
Section Equality.
  Context {D : Type} (val_eqb : pval D -> pval D -> bool).

  Fixpoint all_equal (a b : list (string * pval D)) : bool :=
    match a, b with
    | [], [] => true
    | (n, v) :: a', (m, w) :: b' =>
        (String.eqb n m && val_eqb v w && all_equal a' b')%bool
    | _, _ => false
    end.

  Definition params_eq_result (t u : sparams D)
             (sort : list (string * pval D) -> list (string * pval D)) : bool :=
    if Nat.eqb (length (condensed t)) (length (condensed u))
    then all_equal (sort (condensed t)) (sort (condensed u))
    else false.
End Equality.
