(** What a user of the parameter store relies on, independently of how it is
    implemented: a flat log of assignments to fully qualified names. *)
From Coq Require Import String Ascii List Bool Arith.
From Verif Require Import Model_Params.
Import ListNotations.
Local Open Scope string_scope.

(** A string whose last character is ':'. *)
Fixpoint ends_with_colon (s : string) : bool :=
  match s with
  | EmptyString => false
  | String a EmptyString => Ascii.eqb a ":"
  | String _ s' => ends_with_colon s'
  end.

Section Flat.
  Context {D : Type}.

  (** The value most recently assigned to full name [n] with type [ty]. *)
  Fixpoint last_assigned (log : list (string * pval D)) (ty : ptype) (n : string)
    : option (pval D) :=
    match log with
    | [] => None
    | (m, v) :: r =>
        match last_assigned r ty n with
        | Some w => Some w
        | None => if (String.eqb n m && ptype_eqb ty (ptype_of v))%bool
                  then Some v else None
        end
    end.

  (** Flat semantics: assignment log (oldest first) and, per handle, the prefix
      it puts in front of names: "" for the root, "parent prefix ++ child ++ ::"
      for a child. *)
  Record fstate := { flog : list (string * pval D); fprefix : list string }.
  Definition fstart : fstate := {| flog := []; fprefix := [""] |}.

  Definition fstep (s : fstate) (o : pop D) : option (pval D) * fstate :=
    match o with
    | OpSet h n v =>
        match nth_error (fprefix s) h with
        | Some p => (None, {| flog := (flog s ++ [((p ++ n)%string, v)])%list;
                              fprefix := fprefix s |})
        | None => (None, s)
        end
    | OpGet h n d =>
        match nth_error (fprefix s) h with
        | Some p =>
            (Some (match last_assigned (flog s) (ptype_of d) (p ++ n) with
                   | Some v => v | None => d end), s)
        | None => (None, s)
        end
    | OpAdd h n =>
        match nth_error (fprefix s) h with
        | Some p => (None, {| flog := flog s;
                              fprefix := (fprefix s ++ [(p ++ n ++ "::")%string])%list |})
        | None => (None, s)
        end
    end.

  Fixpoint frun (s : fstate) (l : list (pop D)) : list (option (pval D)) * fstate :=
    match l with
    | [] => ([], s)
    | o :: r => let (x, s') := fstep s o in
                let (xs, s'') := frun s' r in (x :: xs, s'')
    end.

  (** Client programs whose AddChild names do not end with ':'. *)
  Definition good_op (o : pop D) : Prop :=
    match o with OpAdd _ n => ends_with_colon n = false | _ => True end.
End Flat.
Arguments fstate : clear implicits.
