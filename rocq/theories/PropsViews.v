(** * Property C57: decoded byte strings that are parts of the reader's buffer. *)
From Verif Require Import GoBase Codec BufioReader Views ViewsSpec ViewsProofs ViewsReq Alloc.
From Coq Require Import List ZArith.
Import ListNotations.
Open Scope Z_scope.
Open Scope list_scope.

(** Whatever was peeked and discarded before: an object of a type without
    nullable byte strings is decoded as the bytes left say, and stays so
    whatever the buffer holds later. *)
Theorem C57_copied : forall t c off msg cs l b,
  windowless t = true -> 0 <= off -> b_calls (new_reader msg) cs = Some (l, b) ->
  forall buf, dmap (seen buf) (fst (mdec t c off b)) = dec t c (rest_of msg cs) off.
Proof. exact copied. Qed.
Print Assumptions C57_copied.

(** An object of any type, decoded before anything was discarded, is what the
    message says, and stays so however much is peeked at afterwards. *)
Theorem C57_undiscarded : forall t c off msg ns l b,
  0 <= off -> b_calls (new_reader msg) (map BPeek ns) = Some (l, b) ->
  forall ms l2 b2, b_calls (snd (mdec t c off b)) (map BPeek ms) = Some (l2, b2) ->
  dmap (seen (bBuf b2)) (fst (mdec t c off b)) = dec t c msg off.
Proof. exact undiscarded. Qed.
Print Assumptions C57_undiscarded.

(** The same for the tags of a header. *)
Theorem C57_tags_undiscarded : forall off msg ns l b,
  0 <= off -> b_calls (new_reader msg) (map BPeek ns) = Some (l, b) ->
  forall ms l2 b2, b_calls (snd (m_tags off b)) (map BPeek ms) = Some (l2, b2) ->
  dmap (map (fun e => (fst e, seen (bBuf b2) (snd e)))) (fst (m_tags off b)) =
  dmap (map (fun e => (fst e, match snd e with TagRaw d => VBytes (Some d) | TagObj v => v end)))
       (peekTags (fun _ => None) msg off).
Proof. exact tags_undiscarded. Qed.
Print Assumptions C57_tags_undiscarded.

(** In any case nothing but the contents of such byte strings can be wrong: the
    outcome, the end position, all other parts and all lengths are right. *)
Theorem C57_only_contents : forall t c off msg cs l b,
  0 <= off -> b_calls (new_reader msg) cs = Some (l, b) ->
  forall buf, zlen buf = 4096 ->
  dmap (fun w => blank (seen buf w)) (fst (mdec t c off b)) = dmap blank (dec t c (rest_of msg cs) off).
Proof. exact only_contents. Qed.
Print Assumptions C57_only_contents.

(** Every request the mock reads: header, client id and body are what the message
    says, at every later moment. *)
Theorem C57_requests : forall a t msg, request_type a = Some t ->
  forall buf, request_seen buf (fst (m_request tHeader0 t false msg)) = request_in tHeader0 t false msg.
Proof. exact requests_copied. Qed.
Print Assumptions C57_requests.

(** But a request type with such a byte string would not do: here the handler
    would see other bytes than the client sent. *)
Theorem C57_views_refuted : exists tb msg n h c v v',
  request_in tHeader0 tb false msg = DOk n (h, c, [], v) /\
  (let m := m_request tHeader0 tb false msg in
   request_seen (bBuf (snd m)) (fst m) = DOk n (h, c, [], v')) /\ v <> v'.
Proof. exact view_refuted. Qed.
Print Assumptions C57_views_refuted.

(** Nor are the tags of a header still what the client sent when the handler has
    read its request (here that of Metadata). *)
Theorem C57_tags_refuted : exists msg n h c v tags tags',
  request_in tHeader0 tMetadataReq true msg = DOk n (h, c, tags, v) /\
  (let m := m_request tHeader0 tMetadataReq true msg in
   request_seen (bBuf (snd m)) (fst m) = DOk n (h, c, tags', v)) /\ tags <> tags'.
Proof. exact tags_refuted. Qed.
Print Assumptions C57_tags_refuted.

(** Examples: the request of [view_msg], once with the contents wrong, once (its
    body as a message of its own, some of it peeked at) with all of it right. *)
Example C57_ex_only_contents :
  match b_calls (new_reader view_msg) [BPeek 10; BDiscard 10] with
  | Some (_, b) =>
      rest_of view_msg [BPeek 10; BDiscard 10] = view_body /\
      (let m := mdec view_type false 0 b in
       zlen (bBuf (snd m)) = 4096 /\
       dmap (seen (bBuf (snd m))) (fst m) <> dec view_type false view_body 0 /\
       dmap (fun w => blank (seen (bBuf (snd m)) w)) (fst m) = DOk 22 (VStruct [VBytes (Some (repeat 0 20)); VInt 7]))
  | None => False
  end.
Proof. vm_compute. split; [reflexivity|]. split; [reflexivity|]. split; [discriminate|reflexivity]. Qed.
Example C57_ex_undiscarded :
  match b_calls (new_reader view_body) [BPeek 3; BPeek 100] with
  | Some (_, b) =>
      match b_calls (snd (mdec view_type false 0 b)) [BPeek 30; BPeek 5000] with
      | Some (_, b2) =>
          dmap (seen (bBuf b2)) (fst (mdec view_type false 0 b)) =
            DOk 22 (VStruct [VBytes (Some (map Z.of_nat (seq 1 20))); VInt 7])
      | None => False
      end
  | None => False
  end.
Proof. vm_compute. reflexivity. Qed.
Example C57_ex_tags :
  fst (m_tags 10 (new_reader tags_msg)) = DOk 33 [(5, WView 13 20)] /\
  dmap (map (fun e => (fst e, seen (bBuf (snd (m_tags 10 (new_reader tags_msg)))) (snd e)))) (fst (m_tags 10 (new_reader tags_msg))) =
    DOk 33 [(5, VBytes (Some (map Z.of_nat (seq 1 20))))].
Proof. vm_compute. split; reflexivity. Qed.
Example C57_ex_requests : forall buf,
  request_seen buf (fst (m_request tHeader0 tFindReq false ([0; 10; 0; 0; 0; 0; 0; 9] ++ [0; 2; 65; 66] ++ [0; 1; 71]))) =
  DOk 3 (VStruct [VInt 10; VInt 0; VInt 9], [65; 66], [], VStruct [VStr [71]]).
Proof. intros buf. rewrite (C57_requests ApiFindCoordinator) by reflexivity. vm_compute. reflexivity. Qed.
Example C57_ex_copied : forall buf,
  match b_calls (new_reader view_msg) [BPeek 10; BDiscard 11] with
  | Some (_, b) => dmap (seen buf) (fst (mdec (TStruct [(plain, TString); (plain, TUuid)]) false 16 b)) = DFail /\
                   dmap (seen buf) (fst (mdec (TStruct [(plain, TUint8); (plain, TInt16)]) false 2 b)) =
                     DOk 5 (VStruct [VInt 3; VInt (4 * 256 + 5)])
  | None => False
  end.
Proof. intros buf. vm_compute. split; reflexivity. Qed.
