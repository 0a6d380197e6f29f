(** * ViewsReq: no request type of the mock has a nullable byte string. *)
From Verif Require Import ViewsProofs Alloc.
Open Scope Z_scope.

Lemma requests_copied a t msg : request_type a = Some t ->
  forall buf, request_seen buf (fst (m_request tHeader0 t false msg)) = request_in tHeader0 t false msg.
Proof.
  intros H buf. apply request_copied; [reflexivity|].
  destruct a; cbn in H; try discriminate; injection H as <-; reflexivity.
Qed.
