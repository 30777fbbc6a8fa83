(** The Fresnel integrals exist: the hypothesis of C46 and C54 about the fresnel function can be met.
    (Coquelicot's integral of a continuous function; no axioms beyond the standard library's.) *)
From Coq Require Import Reals Lra.
From Coquelicot Require Import Coquelicot.
From Verif Require Import Spec_PlanView.
Local Open Scope R_scope.

Lemma antiderivative_exists (f : R -> R) : (forall x, continuous f x) -> exists F, forall x, derivable_pt_lim F x (f x).
Proof.
  intros C. exists (fun x => RInt f 0 x). intros x. apply is_derive_Reals. apply is_derive_RInt with (a := 0).
  - exists (mkposreal 1 Rlt_0_1). intros y _. apply (RInt_correct (V := R_CompleteNormedModule)). apply (ex_RInt_continuous (V := R_CompleteNormedModule)). intros z _. apply C.
  - apply C.
Qed.
Example fresnel_integrals_exist : exists FC FS, fresnel_integrals FC FS.
Proof.
  destruct (antiderivative_exists (fun x => cos (PI / 2 * x * x))) as [FC HC].
  { intros x. apply continuity_pt_filterlim. apply (continuity_pt_comp (fun x => PI / 2 * x * x) cos); [|apply continuity_cos].
    apply derivable_continuous_pt. reg. }
  destruct (antiderivative_exists (fun x => sin (PI / 2 * x * x))) as [FS HS].
  { intros x. apply continuity_pt_filterlim. apply (continuity_pt_comp (fun x => PI / 2 * x * x) sin); [|apply continuity_sin].
    apply derivable_continuous_pt. reg. }
  exists FC, FS. intros x. auto.
Qed.
Print Assumptions fresnel_integrals_exist.
