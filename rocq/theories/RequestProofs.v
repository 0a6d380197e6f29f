(** * RequestProofs: requests with replies that do not depend on the store *)
From Verif Require Export ExchangeProofs.
From stdpp Require Import gmap list.
From Coq Require Import ZifyBool ZifyNat.
Open Scope Z_scope.
Open Scope list_scope.

(** ** From the bytes of a request to its handler *)
Definition header_val (key ver corr : Z) : val := VStruct [VInt key; VInt ver; VInt corr].
Lemma header_good key ver corr : l_i16 key = true -> l_i16 ver = true -> l_i32 corr = true ->
  good (dec tHeader0 false) (w_int16 key ++ w_int16 ver ++ w_int32 corr) (header_val key ver corr).
Proof.
  intros. apply readable; [reflexivity| |].
  - unfold header_val. wt_tac.
  - eapply encs_eq; [unfold header_val; encs_tac|]. now rewrite app_nil_r.
Qed.
Lemma client_good client : l_nstring client = true -> good peek_data16 (w_nstring client) client.
Proof.
  intros H. rewrite <- enc_nstr_w. apply good_data16. destruct client; [|trivial].
  unfold l_nstring, l_string in H. change (2 ^ 15) with 32768. lia.
Qed.

Lemma zlen_nstring client : zlen (w_nstring client) = 2 + match client with Some s => zlen s | None => 0 end.
Proof.
  destruct client as [s|]; unfold w_nstring, w_string, w_int16; rewrite ?zlen_app, zlen_w_be; lia.
Qed.

(** Everything up to the handler, for any body. *)
Lemma begin_request port key ver corr client body : l_header key ver corr client = true ->
  beginRequest port (w_request key ver corr client body) =
  match dispatch key ver with
  | Some a => match startApi a port body with
              | Some (rest, tk) => Some (corr, rest, tk)
              | None => None end
  | None => None
  end.
Proof.
  unfold l_header. intros H. split_ands. unfold beginRequest, w_request.
  set (h := w_int16 key ++ w_int16 ver ++ w_int32 corr).
  replace (w_int16 key ++ w_int16 ver ++ w_int32 corr ++ w_nstring client ++ body)
    with (h ++ w_nstring client ++ body) by (unfold h; now rewrite <- !app_assoc).
  assert (Hh : zlen h = 8) by (unfold h, w_int16, w_int32; now rewrite !zlen_app, !zlen_w_be).
  rewrite (peekObject_good tHeader0 (header_val key ver corr) h) by
    (try (now apply header_good); unfold bufsize; lia).
  cbn [header_val]. rewrite Hh.
  destruct (client_good client ltac:(assumption) h) as [Hc _]. specialize (Hc body).
  rewrite Hh, zlen_nstring in Hc. unfold peekString. rewrite Hc by (unfold bufsize; lia).
  cbn [dmap]. replace (discard _ _) with body; [reflexivity|].
  unfold discard. rewrite app_assoc. symmetry. apply skipn_app_exact.
  rewrite app_length. unfold zlen in *. pose proof (zlen_nstring client) as Hz. unfold zlen in Hz. lia.
Qed.

Lemma begin_unreadable port key ver corr client body :
  l_i16 key = true -> l_i16 ver = true -> l_i32 corr = true -> l_nstring client = true ->
  4096 < 10 + olen client ->
  beginRequest port (w_request key ver corr client body) = None.
Proof.
  intros. unfold beginRequest, w_request.
  set (h := w_int16 key ++ w_int16 ver ++ w_int32 corr).
  replace (w_int16 key ++ w_int16 ver ++ w_int32 corr ++ w_nstring client ++ body)
    with (h ++ w_nstring client ++ body) by (unfold h; now rewrite <- !app_assoc).
  assert (Hh : zlen h = 8) by (unfold h, w_int16, w_int32; now rewrite !zlen_app, !zlen_w_be).
  rewrite (peekObject_good tHeader0 (header_val key ver corr) h) by
    (try (now apply header_good); unfold bufsize; lia).
  cbn [header_val]. unfold peekString.
  rewrite (good_beyond peek_data16 (w_nstring client) client h body).
  - reflexivity.
  - intros. apply peek_data16_window.
  - now apply client_good.
  - unfold bufsize. lia.
  - rewrite Hh, zlen_nstring. unfold bufsize. destruct client; cbn [olen] in *; lia.
Qed.

Lemma readRequest_good t b v rest : good (dec t false) b v -> zlen b <= 4096 ->
  readRequest t (b ++ rest) = Some (v, rest).
Proof.
  intros Hg Hb. unfold readRequest. rewrite (peekObject_good t v b) by auto.
  f_equal. f_equal. unfold discard. apply skipn_app_exact. unfold zlen. lia.
Qed.
Lemma readRequest_long t b v rest : good (dec t false) b v -> 4096 < zlen b ->
  readRequest t (b ++ rest) = None.
Proof. intros Hg Hb. unfold readRequest. now rewrite (peekObject_long t v b). Qed.

Lemma with_req_good {A} t (f : val -> option A) (k : A -> option task) b v rest x :
  good (dec t false) b v -> zlen b <= 4096 -> f v = Some x ->
  with_req t f (b ++ rest) k = match k x with Some tk => Some (rest, tk) | None => None end.
Proof. intros Hg Hb Hf. unfold with_req. rewrite (readRequest_good t b v) by assumption. now rewrite Hf. Qed.
Lemma with_req_long {A} t (f : val -> option A) (k : A -> option task) b v rest :
  good (dec t false) b v -> 4096 < zlen b -> with_req t f (b ++ rest) k = None.
Proof. intros Hg Hb. unfold with_req. now rewrite (readRequest_long t b v). Qed.

(** ** Replies that are ready at once *)
Lemma answers_const port ch A c m s corr t v payload :
  serving port ch A c m s -> beginRequest port m = Some (corr, [], TkRet t v) ->
  encodeObject t v = Some payload ->
  answers c s (fun _ r => r = w_reply corr payload) 4.
Proof.
  intros Hs Hb He. destruct (serving_inv _ _ _ _ _ _ _ _ _ Hs Hb) as (inb & Hk & Hi & Hc).
  eapply (answers_intro port (initApiVersions ch) (A ++ [OFrame c m]) c corr
    (fun _ n tk => n = 0%nat /\ tk = TkRet t v)); eauto.
  - split.
    + intros B n tk o _ H. exact H.
    + intros s1 B n tk ch1 _ _ Hret [_ ->]. discriminate.
    + intros B n t' v' [_ [= -> ->]]. eauto.
  - intros B n tk [-> _]. lia.
  - intros B n t' v' pl [_ [= -> ->]] He'. rewrite He in He'. now injection He' as <-.
Qed.

Lemma encs_object t v b : encs t v b -> encodeObject t v = Some b.
Proof. intros H. apply H. Qed.

Lemma str_localhost : str "localhost" = w_text "localhost".
Proof. reflexivity. Qed.

(** What the Metadata and FindCoordinator replies say. *)
Definition meta_topic (t : bytes) : Z * bytes * bool * list (Z * Z * Z * list Z * list Z) :=
  (0, t, false, [(0, 2, 100, [1], [1])]).

Lemma metadata_enc port topics :
  encodeObject (TPtr tMetadataResp) (VPtr (Some (metadataReply port topics))) =
  Some (w_metadata_resp [(100, w_text "localhost", port, None)] 500 (map meta_topic topics)).
Proof.
  apply encs_object. apply encs_ptr. unfold metadataReply.
  eapply encs_eq; [autounfold with wire; apply encs_cons; [|apply encs_cons; [encs_step|apply encs_cons; [|apply encs_nil]]]|].
  - apply (encs_slice _ (fun b : Z * bytes * Z * option bytes => let '(id, host, port, rack) := b in
       VStruct [VInt id; VStr host; VInt (swrap 32 port); VNStr rack]) w_broker
       [(100, w_text "localhost", port, None)]); [discriminate|].
    intros [[[id host] po] rack] _. eapply encs_eq; [encs_tac|]. cbn [w_broker].
    now rewrite app_nil_r, w_int32_swrap.
  - apply (encs_slice _ _ (fun t => w_meta_topic (meta_topic t))); [discriminate|].
    intros t _. cbn beta.
    eapply encs_eq; [repeat encs_step|].
    + apply (encs_slice _ (fun p : Z * Z * Z * list Z * list Z => let '(e, i, l, r, q) := p in
        VStruct [VInt e; VInt i; VInt l; vslice (map VInt r); vslice (map VInt q)]) w_meta_part
        [(0, 2, 100, [1], [1])]); [discriminate|].
      intros [[[[e i] l] r] q] _. eapply encs_eq; [repeat encs_step|].
      * apply (encs_slice _ VInt w_int32); [discriminate|]. intros; apply encs_i32.
      * apply (encs_slice _ VInt w_int32); [discriminate|]. intros; apply encs_i32.
      * cbn [w_meta_part]. now rewrite app_nil_r.
    + cbn [meta_topic w_meta_topic]. now rewrite app_nil_r.
  - unfold w_metadata_resp. rewrite app_nil_r. f_equal. f_equal. unfold w_array.
    now rewrite map_map, zlen_map.
Qed.

Theorem metadata_answered port ch A c corr client topics s :
  l_header 3 1 corr client = true -> l_metadata topics = true -> zlen (w_metadata_req topics) <= 4096 ->
  serving port ch A c (w_request 3 1 corr client (w_metadata_req topics)) s ->
  answers c s (fun _ r => r = w_reply corr
    (w_metadata_resp [(100, w_text "localhost", port, None)] 500 (map meta_topic topics))) 4.
Proof.
  intros Hh Hl Hz Hs. eapply answers_const; [exact Hs| |apply metadata_enc].
  rewrite begin_request by assumption. change (dispatch 3 1) with (Some ApiMetadata). cbn [startApi].
  rewrite <- (app_nil_r (w_metadata_req topics)).
  rewrite (with_req_good _ _ _ _ _ [] topics (metadata_good topics Hl)) by (try assumption; apply metadata_of).
  reflexivity.
Qed.

Lemma find_enc port :
  encodeObject (TPtr tFindResp) (VPtr (Some (findReply port))) =
  Some (w_find_resp 0 100 (w_text "localhost") port).
Proof.
  apply encs_object. unfold findReply. eapply encs_eq; [encs_tac|]. rewrite app_nil_r, w_int32_swrap. reflexivity.
Qed.
Theorem find_answered port ch A c corr client key s :
  l_header 10 0 corr client = true -> l_string key = true -> zlen (w_find_req key) <= 4096 ->
  serving port ch A c (w_request 10 0 corr client (w_find_req key)) s ->
  answers c s (fun _ r => r = w_reply corr (w_find_resp 0 100 (w_text "localhost") port)) 4.
Proof.
  intros Hh Hl Hz Hs. eapply answers_const; [exact Hs| |apply find_enc].
  rewrite begin_request by assumption. change (dispatch 10 0) with (Some ApiFindCoordinator). cbn [startApi].
  rewrite <- (app_nil_r (w_find_req key)).
  rewrite (with_req_good _ _ _ _ _ [] tt (find_good key Hl)) by (try assumption; reflexivity).
  reflexivity.
Qed.

Lemma zero_enc t : t = fields [TInt16] ->
  encodeObject (TPtr t) (VPtr (Some zeroReply)) = Some (w_error_resp 0).
Proof. intros ->. apply encs_object. unfold zeroReply. eapply encs_eq; [encs_tac|]. now rewrite app_nil_r. Qed.

Theorem heartbeat_answered port ch A c corr client group gen member s :
  l_header 12 0 corr client = true -> l_heartbeat group gen member = true ->
  zlen (w_heartbeat_req group gen member) <= 4096 ->
  serving port ch A c (w_request 12 0 corr client (w_heartbeat_req group gen member)) s ->
  answers c s (fun _ r => r = w_reply corr (w_error_resp 0)) 4.
Proof.
  intros Hh Hl Hz Hs. eapply answers_const; [exact Hs| |apply (zero_enc tHeartbeatResp eq_refl)].
  rewrite begin_request by assumption. change (dispatch 12 0) with (Some ApiHeartbeat). cbn [startApi].
  rewrite <- (app_nil_r (w_heartbeat_req _ _ _)).
  rewrite (with_req_good _ _ _ _ _ [] tt (heartbeat_good _ _ _ Hl)) by (try assumption; reflexivity).
  reflexivity.
Qed.

Theorem leave_answered port ch A c corr client group member s :
  l_header 13 0 corr client = true -> l_leave group member = true ->
  zlen (w_leave_req group member) <= 4096 ->
  serving port ch A c (w_request 13 0 corr client (w_leave_req group member)) s ->
  answers c s (fun _ r => r = w_reply corr (w_error_resp 0)) 4.
Proof.
  intros Hh Hl Hz Hs. eapply answers_const; [exact Hs| |apply (zero_enc tLeaveResp eq_refl)].
  rewrite begin_request by assumption. change (dispatch 13 0) with (Some ApiLeaveGroup). cbn [startApi].
  rewrite <- (app_nil_r (w_leave_req _ _)).
  rewrite (with_req_good _ _ _ _ _ [] tt (leave_good _ _ Hl)) by (try assumption; reflexivity).
  reflexivity.
Qed.

Lemma join_enc :
  encodeObject (TPtr tJoinResp) (VPtr (Some joinReply)) =
  Some (w_join_resp 0 0 (w_text "roundrobin") (w_text "me") (w_text "1") [(w_text "you", None)]).
Proof. vm_compute. reflexivity. Qed.

Theorem join_answered port ch A c corr client group session rebalance member ptype protocols s :
  l_header 11 1 corr client = true -> l_join group session rebalance member ptype protocols = true ->
  zlen (w_join_req group session rebalance member ptype protocols) <= 4096 ->
  serving port ch A c (w_request 11 1 corr client (w_join_req group session rebalance member ptype protocols)) s ->
  answers c s (fun _ r => r = w_reply corr
    (w_join_resp 0 0 (w_text "roundrobin") (w_text "me") (w_text "1") [(w_text "you", None)])) 4.
Proof.
  intros Hh Hl Hz Hs. eapply answers_const; [exact Hs| |apply join_enc].
  rewrite begin_request by assumption. change (dispatch 11 1) with (Some ApiJoinGroup). cbn [startApi].
  rewrite <- (app_nil_r (w_join_req _ _ _ _ _ _)).
  rewrite (with_req_good _ _ _ _ _ [] tt (join_good _ _ _ _ _ _ Hl)) by (try assumption; reflexivity).
  reflexivity.
Qed.
