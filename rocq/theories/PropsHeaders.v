(** * PropsHeaders: headers posted with ExtendedPost are not delivered (C30) *)
From Verif Require Import HeaderProofs Demo.
From stdpp Require Import gmap list.
Open Scope Z_scope.
Open Scope list_scope.

(** Two histories with the same schedule, differing only in the headers given to
    ExtendedPost: everything observable but the headers of the stored records
    themselves is the same, step by step. *)
Theorem C30_headers_unseen port ch e1 e2 : Forall2 alike e1 e2 ->
  Forall2 alike_obs (snd (run (init port ch) e1)) (snd (run (init port ch) e2)).
Proof. exact (headers_unseen port ch e1 e2). Qed.
Print Assumptions C30_headers_unseen.

(** In particular each client is served and answered with the same bytes. *)
Theorem C30_headers_not_delivered port ch e1 e2 c : Forall2 alike e1 e2 ->
  let A := snd (run (init port ch) e1) in let B := snd (run (init port ch) e2) in
  writes c A = writes c B /\ reads c A = reads c B /\ frames c A = frames c B.
Proof. exact (headers_not_delivered port ch e1 e2 c). Qed.
Print Assumptions C30_headers_not_delivered.

(** One record posted with a header, and without; a Fetch answers with it. *)
Example C30_ex :
  let h1 := [(w_text "h", Some [3])] in
  Forall2 alike (headers_demo h1) (headers_demo []) /\
  existsb (fun o => match o with OPosted _ _ _ r => negb (Nat.eqb (length (rHdrs r)) 0) | _ => false end)
    (snd (run (init 9092 []) (headers_demo h1))) = true /\
  writes 0 (snd (run (init 9092 []) (headers_demo h1))) =
    w_reply 8 (w_fetch_resp 0 [(topicA, [(0, 0, 1, w_record 0 (Rec 0 5 (Some [1]) (Some [2]) []))])]).
Proof.
  cbv zeta. split; [|split; vm_compute; reflexivity]. unfold headers_demo. constructor; [now constructor|].
  generalize ([EvApi 0; EvApi 0; EvApi 0; EvApi 0; EvAccept; EvConn 0 ch0;
   EvRecv 0 (w_frame (w_request 1 2 8 clientA (w_fetch_req (-1) 0 1 [(topicA, [(0, 0, 1000)])])))] ++
  repeat (EvConn 0 ch0) 40) as l. induction l; constructor; [constructor|assumption].
Qed.
