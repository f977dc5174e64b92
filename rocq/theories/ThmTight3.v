(** C160: the default of the OTLabelProp shorthand.  *)
From Coq Require Import String List ZArith QArith Bool Arith Lia.
From Verif Require Import Np NpFacts CtorModel CtorSpec ThmCtor FactModel FactSpec ThmFact.
Import ListNotations.
Local Open Scope list_scope.
Local Open Scope string_scope.

(** "reg : float, default=0" (skada/_ot.py:874): left out, the shorthand asks for exact transport; given, the value reaches the adapter. *)
Theorem C160_label_propagation_default : forall args o b, shorthand f_otlp args = Ok (o, b) ->
  (given args "reg" = None -> o_attr o "reg" = Some (PNum 0)) /\ (forall v, given args "reg" = Some v -> o_attr o "reg" = Some v).
Proof.
  intros args o b H. assert (P : provided "OTLabelProp" f_otlp) by (unfold provided, factories; cbn; tauto).
  destruct (passed_on _ _ args o b P H) as (_ & a & C & A1 & _ & _). cbn in C. injection C as <-. cbn [o_attr].
  rewrite A1 by (cbn; tauto). unfold setting, given in *. split; [intros ->; reflexivity|intros v ->; reflexivity].
Qed.
Example C160_label_propagation_ex : exists o b, shorthand f_otlp [] = Ok (o, b) /\ o_attr o "reg" = Some (PNum 0).
Proof. eexists. eexists. split; reflexivity. Qed.
