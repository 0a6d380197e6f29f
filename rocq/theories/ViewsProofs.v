(** * ViewsProofs: the decoder on the reader against the decoder on bytes. *)
From Verif Require Import GoBase Codec CodecProofs BufioReader.
From Verif Require Export ViewsSpec.
From Coq Require Import List ZArith Lia Bool.
Import ListNotations.
Open Scope Z_scope.

(** As long as nothing has been discarded, the buffer is only added to. *)
Definition grown (b b' : breader) : Prop :=
  bR b = O -> bR b' = O /\ (bW b <= bW b')%nat /\ firstn (bW b) (bBuf b') = firstn (bW b) (bBuf b).
Lemma grown_refl b : grown b b.
Proof. intros H. auto. Qed.
Lemma grown_trans a b c : grown a b -> grown b c -> grown a c.
Proof.
  intros H1 H2 H. destruct (H1 H) as (R1 & W1 & F1). destruct (H2 R1) as (R2 & W2 & F2).
  split; [exact R2|]. split; [lia|]. rewrite <- F1.
  rewrite <- (firstn_firstn (bBuf c) (bW a) (bW b)) || idtac.
  replace (bW a) with (Nat.min (bW a) (bW b)) at 1 2 by lia.
  rewrite <- !firstn_firstn, F2. reflexivity.
Qed.

Lemma fill_grown b b' : fill b = Some b' -> wf b -> grown b b'.
Proof.
  intros F W R0. unfold fill in F. assert (slide b = b) as Es by (unfold slide; rewrite R0; reflexivity). rewrite Es in F.
  destruct W as [P1 P2 P3 P4]. destruct (length (bBuf b) <=? bW b)%nat; [discriminate|].
  destruct (bSrc b) as [|x s]; injection F as <-; cbn [bR bW bBuf].
  - auto.
  - split; [exact R0|]. split; [lia|]. rewrite firstn_app, firstn_firstn, firstn_length, Nat.min_id.
    replace (bW b - Nat.min (bW b) (length (bBuf b)))%nat with O by lia. cbn [firstn]. apply app_nil_r.
Qed.
Lemma loop_grown fuel : forall b b' n, wf b -> peek_loop fuel b n = Some b' -> grown b b'.
Proof.
  induction fuel as [|f IH]; intros b b' n W; cbn [peek_loop]; destruct (want_more b n) eqn:M; try discriminate.
  - intros E. injection E as <-. apply grown_refl.
  - destruct (want_true b n W M) as (A1 & A2 & A3). destruct (fill_spec b W A2) as (b1 & F & W1 & _). rewrite F.
    intros E. eapply grown_trans; [eapply fill_grown; eauto|]. eapply IH; eauto.
  - intros E. injection E as <-. apply grown_refl.
Qed.

Lemma m_peek_spec n b : wf b ->
  let '(d, ok, b') := m_peek n b in
  wf b' /\ left_bytes b' = left_bytes b /\ grown b b' /\
  d = peek_avail (left_bytes b) n /\
  (if ok then peek (left_bytes b) n = Some d /\ 0 <= n <= Z.of_nat (bW b' - bR b') /\ d = firstn (Z.to_nat n) (buffered b')
   else peek (left_bytes b) n = None).
Proof.
  intros W. unfold m_peek. destruct (b_peek_spec b n W) as (d & ok & b' & E & W' & L' & D & K). rewrite E.
  split; [exact W'|]. split; [exact L'|].
  assert (grown b b' /\ (ok = true -> 0 <= n <= Z.of_nat (bW b' - bR b') /\ d = firstn (Z.to_nat n) (buffered b'))) as [G1 G2].
  { unfold b_peek in E. destruct (n <? 0) eqn:N; [injection E as <- <- <-; split; [apply grown_refl|discriminate]|].
    destruct (peek_loop 3 b n) as [b1|] eqn:Lp; [|discriminate]. pose proof (loop_grown _ _ _ _ W Lp) as Gr.
    destruct (_ <? n); [injection E as <- <- <-; split; [exact Gr|discriminate]|].
    destruct (Z.of_nat (bW b1 - bR b1) <? n) eqn:Ha; injection E as <- <- <-.
    - split; [|discriminate]. intros R0. destruct (Gr R0) as (X & Y & Z). auto.
    - split; [exact Gr|]. intros _. split; [|reflexivity]. apply Z.ltb_ge in N, Ha. lia. }
  split; [exact G1|]. split; [exact D|]. rewrite K in *. destruct (peek (left_bytes b) n) as [d'|] eqn:P.
  - split; [|apply G2; reflexivity]. f_equal. rewrite D. unfold peek in P. unfold peek_avail.
    destruct ((n <? 0) || (bufsize <? n) || (zlen (left_bytes b) <? n)) eqn:C; [discriminate|]. injection P as <-.
    apply orb_false_iff in C as [C _]. apply orb_false_iff in C as [_ C]. apply Z.ltb_ge in C.
    rewrite Z.min_l by lia. reflexivity.
  - reflexivity.
Qed.

(** The part of the buffer from [next] to the end of what a good Peek returned. *)
Lemma window b n next : wf b -> 0 <= next <= n -> n <= Z.of_nat (bW b - bR b) ->
  let s := (bR b + Z.to_nat next)%nat in let k := Z.to_nat (n - next) in
  (s + k <= bW b)%nat /\ firstn k (skipn s (bBuf b)) = skipn (Z.to_nat next) (firstn (Z.to_nat n) (buffered b)).
Proof.
  intros W H1 H2 s k. pose proof W as [P1 P2 P3 P4]. split; [unfold s, k; lia|].
  unfold buffered. rewrite <- skipn_twice with (x := Z.to_nat next) (y := bR b) || idtac.
  unfold s. rewrite Nat.add_comm. rewrite <- skipn_twice.
  rewrite firstn_skipn_comm. replace (Z.to_nat next + k)%nat with (Z.to_nat n) by (unfold k; lia). f_equal.
  rewrite !firstn_skipn_comm. f_equal. rewrite firstn_firstn. f_equal. lia.
Qed.
Lemma window_stays b b' s k : bR b = O -> grown b b' -> (s + k <= bW b)%nat ->
  firstn k (skipn s (bBuf b')) = firstn k (skipn s (bBuf b)).
Proof.
  intros R0 G H. destruct (G R0) as (_ & _ & F). rewrite !firstn_skipn_comm. f_equal.
  replace (s + k)%nat with (Nat.min (s + k) (bW b)) by lia. rewrite <- !firstn_firstn, F. reflexivity.
Qed.

Section Sim.
  (** [fresh]: nothing had been discarded when decoding began. *)
  Variable fresh : Prop.

  Definition sim {A B} (G : breader -> A -> B -> Prop) (b : breader) (m : dres A * breader) (p : dres B) : Prop :=
    wf (snd m) /\ left_bytes (snd m) = left_bytes b /\ grown b (snd m) /\
    match fst m, p with
    | DOk n a, DOk n' v => n = n' /\ 0 <= n /\ G (snd m) a v
    | DFail, DFail => True
    | DPanic, DPanic => True
    | _, _ => False
    end.
  Definition same {A} (b : breader) (a v : A) : Prop := a = v.
  (** [w] is seen as [v] in every buffer if there are no windows; until the next
      Discard if there had been none; up to contents in any case. *)
  Definition fits (wl : bool) (b : breader) (w : wval) (v : val) : Prop :=
    (wl = true -> forall buf, seen buf w = v) /\
    (fresh -> forall b', grown b b' -> seen (bBuf b') w = v) /\
    (forall buf, length buf = bsz -> blank (seen buf w) = blank v).
  Definition all_fit (wl : bool) (b : breader) (ws : list wval) (vs : list val) : Prop := Forall2 (fits wl b) ws vs.

  Lemma fits_grown wl b b1 w v : grown b b1 -> fits wl b w v -> fits wl b1 w v.
  Proof.
    intros G (H1 & H2 & H3). split; [exact H1|]. split; [|exact H3].
    intros F b' G'. apply H2; [exact F|]. eapply grown_trans; eauto.
  Qed.
  Lemma fits_copy wl b v : fits wl b (WCopy v) v.
  Proof. split; [|split]; reflexivity. Qed.
  Lemma fits_weak wl b w v : fits true b w v -> fits wl b w v.
  Proof. intros (H1 & H2 & H3). split; [intros _; apply H1; reflexivity|]. auto. Qed.

  Lemma sim_map {A B A' B'} (G : breader -> A -> B -> Prop) (G' : breader -> A' -> B' -> Prop) f g b m p :
    (forall b' a v, wf b' -> (fresh -> bR b' = O) -> G b' a v -> G' b' (f a) (g v)) -> (fresh -> bR b = O) ->
    sim G b m p -> sim G' b (m_map f m) (dmap g p).
  Proof.
    intros H Hf (W & L & Gr & M). unfold m_map, sim. cbn [fst snd]. split; [exact W|]. split; [exact L|]. split; [exact Gr|].
    destruct (fst m), p; cbn [dmap]; try exact M. destruct M as (-> & N & K). split; [reflexivity|]. split; [exact N|].
    apply H; auto. intros F. apply (Gr (Hf F)).
  Qed.

  (** [m] carries on after [m0]. *)
  Lemma sim_then {A B A0 B0} (G : breader -> A -> B -> Prop) (G0 : breader -> A0 -> B0 -> Prop) b
        (m0 : dres A0 * breader) p0 (km : Z -> A0 -> breader -> dres A * breader) kp :
    sim G0 b m0 p0 ->
    (forall n a v, fst m0 = DOk n a -> p0 = DOk n v -> 0 <= n -> G0 (snd m0) a v -> wf (snd m0) ->
       left_bytes (snd m0) = left_bytes b -> grown b (snd m0) -> sim G (snd m0) (km n a (snd m0)) (kp n v)) ->
    sim G b (match m0 with (DOk n a, b1) => km n a b1 | (DFail, b1) => (DFail, b1) | (DPanic, b1) => (DPanic, b1) end)
            (match p0 with DOk n v => kp n v | DFail => DFail | DPanic => DPanic end).
  Proof.
    intros (W & L & Gr & M) K. destruct m0 as [[n a| |] b1]; cbn [fst snd] in *; destruct p0 as [n' v| |]; try contradiction.
    - destruct M as (-> & N & Q). destruct (K n' a v eq_refl eq_refl N Q W L Gr) as (W2 & L2 & Gr2 & M2).
      split; [exact W2|]. split; [congruence|]. split; [eapply grown_trans; eauto|exact M2].
    - repeat (split; [assumption|]). exact I.
    - repeat (split; [assumption|]). exact I.
  Qed.
  Lemma sim_ok {A B} (G : breader -> A -> B -> Prop) b n a v : wf b -> 0 <= n -> G b a v -> sim G b (DOk n a, b) (DOk n v).
  Proof. intros W N H. split; [exact W|]. split; [reflexivity|]. split; [apply grown_refl|]. cbn. auto. Qed.

  Lemma fixed_sim off len b : wf b -> 0 <= off -> 0 <= len -> sim same b (m_fixed off len b) (peek_fixed (left_bytes b) off len).
  Proof.
    intros W H1 H2. unfold m_fixed, peek_fixed. pose proof (m_peek_spec (off + len) b W) as S.
    destruct (m_peek (off + len) b) as [[d ok] b1]. destruct S as (W1 & L1 & G1 & D & K). destruct ok.
    - destruct K as (K & _). rewrite K. repeat (split; [assumption|]). cbn. split; [reflexivity|]. split; [lia|reflexivity].
    - rewrite K. repeat (split; [assumption|]). exact I.
  Qed.
  Lemma map_same {A B} (f : A -> B) b m p : sim same b m p -> sim same b (m_map f m) (dmap f p).
  Proof.
    intros (W & L & Gr & M). unfold m_map, sim. cbn [fst snd]. split; [exact W|]. split; [exact L|]. split; [exact Gr|].
    destruct (fst m), p; cbn [dmap]; try exact M. destruct M as (-> & N & ->). split; [reflexivity|]. split; [exact N|reflexivity].
  Qed.
  Lemma sint_sim k off b : wf b -> 0 <= off -> 0 <= k -> sim same b (m_sint k off b) (peek_sint k (left_bytes b) off).
  Proof. intros. unfold m_sint, peek_sint. apply map_same, fixed_sim; assumption. Qed.
  Lemma uint_sim k off b : wf b -> 0 <= off -> 0 <= k -> sim same b (m_uint k off b) (peek_uint k (left_bytes b) off).
  Proof. intros. unfold m_uint, peek_uint. apply map_same, fixed_sim; assumption. Qed.
  Lemma bool_sim off b : wf b -> 0 <= off -> sim same b (m_bool off b) (peek_bool (left_bytes b) off).
  Proof. intros. unfold m_bool, peek_bool. apply map_same, fixed_sim; [assumption|assumption|lia]. Qed.

  Lemma varuint_next w l : forall next shift acc n v, varuint_loop w l next shift acc = DOk n v -> next <= n.
  Proof.
    induction l as [|x l IH]; intros next shift acc n v; cbn [varuint_loop]; [discriminate|].
    destruct (Z.land x 128 =? 0); [intros E; injection E as <- _; lia|]. intros E. apply IH in E. lia.
  Qed.
  Lemma varuint_nopanic w l : forall next shift acc, varuint_loop w l next shift acc <> DPanic.
  Proof.
    induction l as [|x l IH]; intros next shift acc; cbn [varuint_loop]; [discriminate|].
    destruct (Z.land x 128 =? 0); [discriminate|]. apply IH.
  Qed.
  Lemma varuint_sim w mx off b : wf b -> 0 <= off -> sim same b (m_varuint_w w mx off b) (peek_varuint_w w mx (left_bytes b) off).
  Proof.
    intros W H1. unfold m_varuint_w, peek_varuint_w. pose proof (m_peek_spec (off + mx) b W) as S.
    destruct (m_peek (off + mx) b) as [[d ok] b1]. destruct S as (W1 & L1 & G1 & D & _). rewrite <- D.
    repeat (split; [assumption|]). cbn [fst].
    destruct (varuint_loop w (skipn (Z.to_nat off) d) off 0 0) as [n v| |] eqn:E; [|exact I|exact I].
    split; [reflexivity|]. split; [apply varuint_next in E; lia|reflexivity].
  Qed.
  Lemma varint_sim off b : wf b -> 0 <= off -> sim same b (m_varint off b) (peek_varint (left_bytes b) off).
  Proof. intros. unfold m_varint, peek_varint. apply map_same, varuint_sim; assumption. Qed.
  Lemma varint64_sim off b : wf b -> 0 <= off -> sim same b (m_varint64 off b) (peek_varint64 (left_bytes b) off).
  Proof. intros. unfold m_varint64, peek_varint64. apply map_same, varuint_sim; assumption. Qed.

  Lemma data16_sim off b : wf b -> 0 <= off -> sim same b (m_data16 off b) (peek_data16 (left_bytes b) off).
  Proof.
    intros W H1. unfold m_data16, peek_data16. pose proof (m_peek_spec (off + 2) b W) as S.
    destruct (m_peek (off + 2) b) as [[d ok] b1]. destruct S as (W1 & L1 & G1 & D & K). destruct ok.
    - destruct K as (K & _). rewrite K. cbv zeta. set (count := swrap 16 _). destruct (count <? 0) eqn:C.
      + repeat (split; [assumption|]). cbn. split; [reflexivity|]. split; [lia|reflexivity].
      + apply Z.ltb_ge in C. pose proof (m_peek_spec (off + 2 + count) b1 W1) as S.
        destruct (m_peek (off + 2 + count) b1) as [[d2 ok] b2]. destruct S as (W2 & L2 & G2 & D2 & K2). rewrite L1 in *.
        destruct ok.
        * destruct K2 as (K2 & _). rewrite K2. split; [exact W2|]. split; [exact L2|]. split; [eapply grown_trans; eauto|].
          cbn. split; [reflexivity|]. split; [lia|reflexivity].
        * rewrite K2. split; [exact W2|]. split; [exact L2|]. split; [eapply grown_trans; eauto|]. exact I.
    - rewrite K. repeat (split; [assumption|]). exact I.
  Qed.

  (** A window and the bytes it should show. *)
  Definition shows (b : breader) (o : option (nat * nat)) (v : option bytes) : Prop :=
    match o, v with
    | Some (s, n), Some d => (s + n <= bW b)%nat /\ firstn n (skipn s (bBuf b)) = d
    | None, None => True
    | _, _ => False
    end.
  Lemma rest_shows next len b : wf b -> 0 <= next -> 0 <= len ->
    sim shows b
      (match m_peek (next + len) b with
       | (_, false, b2) => (DFail, b2)
       | (_, true, b2) => (DOk (next + len) (Some (bR b2 + Z.to_nat next, Z.to_nat len))%nat, b2)
       end)
      (match peek (left_bytes b) (next + len) with
       | None => DFail
       | Some d => DOk (next + len) (Some (skipn (Z.to_nat next) d))
       end).
  Proof.
    intros W H1 H2. pose proof (m_peek_spec (next + len) b W) as S.
    destruct (m_peek (next + len) b) as [[d ok] b1]. destruct S as (W1 & L1 & G1 & D & K). destruct ok.
    - destruct K as (K & Hn & E). rewrite K. repeat (split; [assumption|]). cbn [fst snd]. split; [reflexivity|]. split; [lia|].
      destruct (window b1 (next + len) next W1 ltac:(lia) ltac:(lia)) as [A B]. cbv zeta in A, B.
      replace (next + len - next) with len in A, B by lia. cbn [shows]. split; [exact A|]. rewrite B, E. reflexivity.
    - rewrite K. repeat (split; [assumption|]). exact I.
  Qed.
  Lemma cnbytes_sim off b : wf b -> 0 <= off -> sim shows b (m_cnbytes off b) (peek_cnbytes (left_bytes b) off).
  Proof.
    intros W H1. unfold m_cnbytes, peek_cnbytes.
    apply (sim_then shows same b (m_varint off b) (peek_varint (left_bytes b) off)
      (fun next count b1 => if count <=? 0 then (DOk next None, b1) else
         match m_peek (next + (count - 1)) b1 with
         | (_, false, b2) => (DFail, b2)
         | (_, true, b2) => (DOk (next + (count - 1)) (Some (bR b2 + Z.to_nat next, Z.to_nat (count - 1)))%nat, b2)
         end)
      (fun next count => if count <=? 0 then DOk next None else
         match peek (left_bytes b) (next + (count - 1)) with
         | None => DFail
         | Some d => DOk (next + (count - 1)) (Some (skipn (Z.to_nat next) d))
         end)); [apply varint_sim; assumption|].
    intros n a v _ _ N E W1 L1 G1. red in E. subst v. rewrite <- L1. destruct (a <=? 0) eqn:C.
    - apply sim_ok; [assumption|assumption|exact I].
    - apply Z.leb_gt in C. apply rest_shows; [assumption|assumption|lia].
  Qed.
  Lemma nbytes_sim off b : wf b -> 0 <= off -> sim shows b (m_nbytes off b) (peek_nbytes (left_bytes b) off).
  Proof.
    intros W H1. unfold m_nbytes, peek_nbytes.
    apply (sim_then shows same b (m_sint 4 off b) (peek_sint 4 (left_bytes b) off)
      (fun next len b1 => if len <? 0 then (DOk next None, b1) else
         match m_peek (next + len) b1 with
         | (_, false, b2) => (DFail, b2)
         | (_, true, b2) => (DOk (next + len) (Some (bR b2 + Z.to_nat next, Z.to_nat len))%nat, b2)
         end)
      (fun next len => if len <? 0 then DOk next None else
         match peek (left_bytes b) (next + len) with
         | None => DFail
         | Some d => DOk (next + len) (Some (skipn (Z.to_nat next) d))
         end)); [apply sint_sim; [assumption|assumption|lia]|].
    intros n a v _ _ N E W1 L1 G1. red in E. subst v. rewrite <- L1. destruct (a <? 0) eqn:C.
    - apply sim_ok; [assumption|assumption|exact I].
    - apply Z.ltb_ge in C. apply rest_shows; assumption.
  Qed.
  Lemma cnstr_sim off b : wf b -> 0 <= off -> sim same b (m_cnstr off b) (peek_cnbytes (left_bytes b) off).
  Proof.
    intros W H1. pose proof (cnbytes_sim off b W H1) as (W1 & L1 & G1 & M). unfold m_cnstr.
    destruct (m_cnbytes off b) as [r b1]. cbn [fst snd] in *. repeat (split; [assumption|]). cbn [fst].
    destruct r as [n o| |], (peek_cnbytes (left_bytes b) off) as [n' v| |]; cbn [dmap]; try exact M.
    destruct M as (-> & N & K). split; [reflexivity|]. split; [exact N|]. red.
    destruct o as [[s k]|], v as [d|]; try contradiction; [|reflexivity]. destruct K as [_ <-]. reflexivity.
  Qed.
  Lemma view_fits b o v : wf b -> (fresh -> bR b = O) -> shows b o v -> fits false b (view o) (VBytes v).
  Proof.
    intros W Hf H. destruct o as [[s n]|], v as [d|]; try contradiction; [|apply fits_copy]. destruct H as [H <-].
    destruct W as [P1 P2 P3 P4]. split; [discriminate|]. split.
    - intros F b' G. cbn [view seen]. rewrite (window_stays b b' s n (Hf F) G H). reflexivity.
    - intros buf Hl. cbn [view seen blank]. do 3 f_equal. rewrite !firstn_length, !skipn_length. lia.
  Qed.

  (** The items of an array. *)
  Lemma fits_settable wl b t w v : fits wl b w v -> w_settable t w = settable t v.
  Proof.
    intros (_ & _ & H). specialize (H (repeat 0 bsz) (repeat_length 0 bsz)).
    destruct w; cbn [seen blank w_settable] in *.
    - unfold settable. destruct v0 as [| | | |[]| |[]|[]| | |], v as [| | | |[]| |[]|[]| | |]; try discriminate H; reflexivity.
    - destruct v as [| | | |[]| |[]|[]| | |]; try discriminate H; reflexivity.
    - destruct v as [| | | |[]| |[]|[]| | |]; try discriminate H; reflexivity.
    - destruct v as [| | | |[]| |[]|[]| | |]; try discriminate H; reflexivity.
    - destruct v as [| | | |[]| |[]|[]| | |]; try discriminate H; reflexivity.
  Qed.
  Definition dsim (wl : bool) (md : Z -> breader -> dres wval * breader) (pd : bytes -> Z -> dres val) : Prop :=
    forall off b, wf b -> 0 <= off -> (fresh -> bR b = O) -> sim (fits wl) b (md off b) (pd (left_bytes b) off).

  Lemma all_grown wl b b1 ws vs : grown b b1 -> all_fit wl b ws vs -> all_fit wl b1 ws vs.
  Proof. intros G H. induction H; constructor; [eapply fits_grown; eauto|assumption]. Qed.
  Lemma all_list wl b ws vs : all_fit wl b ws vs -> fits wl b (WList ws) (VSlice (Some vs)).
  Proof.
    intros H. split; [|split].
    - intros E buf. cbn [seen]. do 2 f_equal. induction H as [|w v ws vs (H & _) _ IH]; [reflexivity|].
      cbn [map]. rewrite H by exact E. f_equal. exact IH.
    - intros F b' G. cbn [seen]. do 2 f_equal. induction H as [|w v ws vs (_ & H & _) _ IH]; [reflexivity|].
      cbn [map]. rewrite H by assumption. f_equal. exact IH.
    - intros buf L. cbn [seen blank]. do 2 f_equal. induction H as [|w v ws vs (_ & _ & H) _ IH]; [reflexivity|].
      cbn [map]. rewrite H by assumption. f_equal. exact IH.
  Qed.
  Lemma all_fields b ws vs wls : Forall2 (fun wl wv => fits wl b (fst wv) (snd wv)) wls (combine ws vs) ->
    length ws = length vs -> length wls = length ws ->
    fits (forallb (fun x => x) wls) b (WFields ws) (VStruct vs).
  Proof.
    intros H. revert ws vs H. induction wls as [|wl wls IH]; intros ws vs H L1 L2.
    - destruct ws; [|discriminate]. destruct vs; [|discriminate]. split; [|split]; reflexivity.
    - destruct ws as [|w ws]; [discriminate|]. destruct vs as [|v vs]; [discriminate|]. cbn [combine] in H.
      inversion H as [|? ? ? ? (A & B & C) H']; subst. cbn [fst snd] in *.
      injection L1 as L1. injection L2 as L2. destruct (IH ws vs H' L1 L2) as (A' & B' & C').
      cbn [seen blank] in *. split; [|split].
      + intros E buf. cbn [forallb] in E. apply andb_true_iff in E as [E1 E2]. cbn [seen map]. rewrite A by exact E1.
        specialize (A' E2 buf). injection A' as A'. f_equal. f_equal. exact A'.
      + intros F b' G. cbn [seen map]. rewrite B by assumption. specialize (B' F b' G). injection B' as B'. f_equal. f_equal. exact B'.
      + intros buf L. cbn [seen map blank]. rewrite C by assumption. specialize (C' buf L). injection C' as C'. f_equal. f_equal. exact C'.
  Qed.

  Lemma items_sim wl t md pd : dsim wl md pd -> forall n off b, wf b -> 0 <= off -> (fresh -> bR b = O) ->
    sim (all_fit wl) b (m_items md (w_settable t) n off b) (dec_items pd (settable t) (left_bytes b) n off).
  Proof.
    intros Hd. induction n as [|n IH]; intros off b W Ho Hf; cbn [m_items dec_items].
    - apply sim_ok; [exact W|exact Ho|constructor].
    - destruct (Hd off b W Ho Hf) as (W1 & L1 & G1 & M). destruct (md off b) as [[nx x| |] b1]; cbn [fst snd] in *;
        destruct (pd (left_bytes b) off) as [nx' v| |]; try contradiction.
      + destruct M as (-> & N & K). rewrite (fits_settable _ _ t _ _ K). destruct (settable t v).
        * assert (fresh -> bR b1 = O) as Hf1 by (intros F; apply (G1 (Hf F))).
          destruct (IH nx' b1 W1 N Hf1) as (W2 & L2 & G2 & M2). rewrite L1 in *.
          destruct (m_items md (w_settable t) n nx' b1) as [[e xs| |] b2]; cbn [fst snd] in *;
            destruct (dec_items pd (settable t) (left_bytes b) n nx') as [e' vs| |]; try contradiction;
            (split; [exact W2|]; split; [exact L2|]; split; [eapply grown_trans; eauto|]; cbn [fst snd]); [|exact I|exact I].
          destruct M2 as (-> & N2 & K2). split; [reflexivity|]. split; [exact N2|]. constructor; [eapply fits_grown; eauto|exact K2].
        * repeat (split; [assumption|]). exact I.
      + repeat (split; [assumption|]). exact I.
      + repeat (split; [assumption|]). exact I.
  Qed.
  Lemma fixed_array_sim wl t md pd : dsim wl md pd -> forall len, dsim wl (fun off b => m_fixed_array md (w_settable t) off len b)
    (fun r off => dec_fixed_array pd (settable t) r off len).
  Proof.
    intros Hd len off b W Ho Hf. unfold m_fixed_array, dec_fixed_array. destruct (len <? 0).
    - apply sim_ok; [exact W|exact Ho|apply fits_copy].
    - eapply sim_map; [|exact Hf|apply items_sim; [exact Hd|exact W|exact Ho|exact Hf]].
      intros b' a v _ _ K. apply all_list. exact K.
  Qed.
  Lemma var_array_sim wl t md pd : dsim wl md pd ->
    dsim wl (m_var_array md (w_settable t)) (dec_var_array pd (settable t)).
  Proof.
    intros Hd off b W Ho Hf. unfold m_var_array, dec_var_array.
    apply (sim_then (fits wl) same b (m_sint 4 off b) (peek_sint 4 (left_bytes b) off)
      (fun next len b1 => m_fixed_array md (w_settable t) next len b1)
      (fun next len => dec_fixed_array pd (settable t) (left_bytes b) next len)); [apply sint_sim; [assumption|assumption|lia]|].
    intros n a v _ _ N E W1 L1 G1. red in E. subst v. rewrite <- L1.
    apply (fixed_array_sim wl t md pd Hd a); [exact W1|exact N|]. intros F. apply (G1 (Hf F)).
  Qed.
  Lemma compact_array_sim wl t md pd : dsim wl md pd ->
    dsim wl (m_compact_array md (w_settable t)) (dec_compact_array pd (settable t)).
  Proof.
    intros Hd off b W Ho Hf. unfold m_compact_array, dec_compact_array.
    apply (sim_then (fits wl) same b (m_varint off b) (peek_varint (left_bytes b) off)
      (fun next len b1 => if len =? 0 then (DOk next (WCopy VNil), b1) else m_fixed_array md (w_settable t) next (swrap 32 (len - 1)) b1)
      (fun next len => if len =? 0 then DOk next VNil else dec_fixed_array pd (settable t) (left_bytes b) next (swrap 32 (len - 1))));
      [apply varint_sim; assumption|].
    intros n a v _ _ N E W1 L1 G1. red in E. subst v. rewrite <- L1. destruct (a =? 0).
    - apply sim_ok; [assumption|assumption|apply fits_copy].
    - apply (fixed_array_sim wl t md pd Hd); [exact W1|exact N|]. intros F. apply (G1 (Hf F)).
  Qed.

  Definition fields_fit (fs : list (ftag * ty)) (b : breader) (ws : list wval) (vs : list val) : Prop :=
    length ws = length vs /\ length fs = length ws /\
    Forall2 (fun wl wv => fits wl b (fst wv) (snd wv)) (map (fun f => windowless (snd f)) fs) (combine ws vs).
  Lemma fields_sim fs : Forall (fun f => forall c, dsim (windowless (snd f)) (mdec (snd f) c) (dec (snd f) c)) fs ->
    forall off b, wf b -> 0 <= off -> (fresh -> bR b = O) ->
    sim (fields_fit fs) b (m_fields mdec fs off b) (dec_fields dec (left_bytes b) fs off).
  Proof.
    induction 1 as [|[tg t] fs Hd _ IH]; intros off b W Ho Hf; cbn [m_fields dec_fields].
    - apply sim_ok; [exact W|exact Ho|]. repeat split. constructor.
    - cbn [snd] in Hd. destruct (Hd (tCompact tg) off b W Ho Hf) as (W1 & L1 & G1 & M).
      destruct (mdec t (tCompact tg) off b) as [[nx x| |] b1]; cbn [fst snd] in *;
        destruct (dec t (tCompact tg) (left_bytes b) off) as [nx' v| |]; try contradiction.
      + destruct M as (-> & N & K). rewrite (fits_settable _ _ t _ _ K). destruct (settable t v).
        * assert (fresh -> bR b1 = O) as Hf1 by (intros F; apply (G1 (Hf F))).
          destruct (IH nx' b1 W1 N Hf1) as (W2 & L2 & G2 & M2). rewrite L1 in *.
          destruct (m_fields mdec fs nx' b1) as [[e xs| |] b2]; cbn [fst snd] in *;
            destruct (dec_fields dec (left_bytes b) fs nx') as [e' vs| |]; try contradiction;
            (split; [exact W2|]; split; [exact L2|]; split; [eapply grown_trans; eauto|]; cbn [fst snd]); [|exact I|exact I].
          destruct M2 as (-> & N2 & (K1 & K2 & K3)). split; [reflexivity|]. split; [exact N2|].
          split; [cbn; lia|]. split; [cbn; lia|]. cbn [map combine]. constructor; [eapply fits_grown; eauto|exact K3].
        * repeat (split; [assumption|]). exact I.
      + repeat (split; [assumption|]). exact I.
      + repeat (split; [assumption|]). exact I.
  Qed.

  Lemma copy_sim {A} wl (f : A -> val) b m p : (fresh -> bR b = O) -> sim same b m p -> sim (fits wl) b (m_map (cp f) m) (dmap f p).
  Proof. intros Hf H. eapply sim_map; [|exact Hf|exact H]. intros b' a v _ _ E. red in E. subst. apply fits_copy. Qed.

  Theorem mdec_sim t : forall c, dsim (windowless t) (mdec t c) (dec t c).
  Proof.
    induction t as [t Hbase|e IH|e IH|e IH|fs IH|e IH] using ty_ind'; intros c.
    - destruct t; try contradiction; intros off b W Ho Hf; cbn [mdec dec windowless];
        try (apply copy_sim; [exact Hf|];
             first [apply bool_sim|apply sint_sim|apply uint_sim|apply varint_sim|apply varint64_sim|apply varuint_sim
                   |apply data16_sim|apply cnstr_sim|apply fixed_sim]; auto; lia).
      + eapply sim_map; [|exact Hf|apply nbytes_sim; assumption]. apply view_fits.
      + assert (dsim true (fun o b => m_map (cp VInt) (m_uint 1 o b)) (fun r o => dmap VInt (peek_uint 1 r o))) as Hd.
        { intros off' b' W' Ho' Hf'. apply copy_sim; [exact Hf'|]. apply uint_sim; [assumption|assumption|lia]. }
        destruct c; [apply compact_array_sim|apply var_array_sim]; assumption.
      + eapply sim_map; [|exact Hf|apply cnbytes_sim; assumption]. apply view_fits.
    - intros off b W Ho Hf. cbn [mdec dec windowless].
      destruct c; [apply compact_array_sim|apply var_array_sim]; auto.
    - intros off b W Ho Hf. cbn [mdec dec windowless]. apply compact_array_sim; auto.
    - intros off b W Ho Hf. cbn [mdec dec].
      assert (sim (fits (windowless (TPtr e))) b (m_map WPtr (mdec e false off b)) (dmap (fun v => VPtr (Some v)) (dec e false (left_bytes b) off))) as P.
      { eapply sim_map; [|exact Hf|apply IH; assumption]. intros b' a v _ _ (A & B & C). cbn [windowless]. split; [|split].
        - intros E buf. cbn [seen]. rewrite A by exact E. reflexivity.
        - intros F b2 G. cbn [seen]. rewrite B by assumption. reflexivity.
        - intros buf L. cbn [seen blank]. rewrite C by assumption. reflexivity. }
      destruct e; try exact P; (split; [exact W|]; split; [reflexivity|]; split; [apply grown_refl|]; exact I).
    - intros off b W Ho Hf. cbn [mdec dec windowless].
      eapply sim_map; [|exact Hf|apply fields_sim; assumption]. intros b' ws vs _ _ (A & B & C).
      replace (forallb (fun f => windowless (snd f)) fs) with (forallb (fun x => x) (map (fun f : ftag * ty => windowless (snd f)) fs)).
      + apply all_fields; [exact C|exact A|rewrite map_length; exact B].
      + clear. induction fs as [|f fs IH]; [reflexivity|]. cbn [map forallb]. rewrite IH. reflexivity.
    - intros off b W Ho Hf. cbn [mdec dec windowless].
      pose proof (var_array_sim _ e _ _ (IH false) off b W Ho Hf) as (W1 & L1 & G1 & M).
      destruct (m_var_array (mdec e false) (w_settable e) off b) as [[n x| |] b1]; cbn [fst snd] in *;
        destruct (dec_var_array (dec e false) (settable e) (left_bytes b) off) as [n' v| |]; try contradiction;
        (split; [exact W1|]; split; [exact L1|]; split; [exact G1|]; exact I).
  Qed.
End Sim.

(** ** The theorems *)
Lemma calls_left cs : forall b l b', wf b -> b_calls b cs = Some (l, b') -> wf b' /\ left_bytes b' = rest_of (left_bytes b) cs.
Proof.
  induction cs as [|[n|n] cs IH]; intros b l b' W E; cbn [b_calls rest_of] in *.
  - injection E as <- <-. auto.
  - destruct (b_peek_spec b n W) as (d & ok & b1 & P & W1 & L1 & _). rewrite P in E.
    destruct (b_calls b1 cs) as [[l1 b2]|] eqn:C; [|discriminate]. injection E as <- <-.
    destruct (IH b1 l1 b2 W1 C) as [W2 L2]. rewrite L1 in L2. auto.
  - destruct (b_discard_spec b n W) as (b1 & P & W1 & L1). rewrite P in E.
    destruct (IH b1 l b' W1 E) as [W2 L2]. rewrite L1 in L2. auto.
Qed.
Lemma new_left msg : left_bytes (new_reader msg) = msg.
Proof. unfold left_bytes, buffered, new_reader. cbn [bR bW bBuf bSrc]. rewrite firstn_O. reflexivity. Qed.
Lemma peeks_grown ns : forall b l b', wf b -> b_calls b (map BPeek ns) = Some (l, b') -> grown b b'.
Proof.
  induction ns as [|n ns IH]; intros b l b' W E; cbn [map b_calls] in E.
  - injection E as <- <-. apply grown_refl.
  - pose proof (m_peek_spec n b W) as S. unfold m_peek in S. destruct (b_peek b n) as [[[d ok] b1]|]; [|discriminate].
    destruct S as (W1 & _ & G1 & _). destruct (b_calls b1 (map BPeek ns)) as [[l1 b2]|] eqn:C; [|discriminate].
    injection E as <- <-. eapply grown_trans; [exact G1|]. eapply IH; eauto.
Qed.

Theorem copied t c off msg cs l b : windowless t = true -> 0 <= off -> b_calls (new_reader msg) cs = Some (l, b) ->
  forall buf, dmap (seen buf) (fst (mdec t c off b)) = dec t c (rest_of msg cs) off.
Proof.
  intros Hw Ho E buf. destruct (calls_left cs _ _ _ (wf_new msg) E) as [W L]. rewrite new_left in L. rewrite <- L.
  destruct (mdec_sim False t c off b W Ho ltac:(intros [])) as (_ & _ & _ & M).
  destruct (fst (mdec t c off b)), (dec t c (left_bytes b) off); try contradiction; try reflexivity.
  destruct M as (-> & _ & (M & _)). cbn [dmap]. rewrite M by exact Hw. reflexivity.
Qed.
Theorem undiscarded t c off msg ns l b : 0 <= off -> b_calls (new_reader msg) (map BPeek ns) = Some (l, b) ->
  forall ms l2 b2, b_calls (snd (mdec t c off b)) (map BPeek ms) = Some (l2, b2) ->
  dmap (seen (bBuf b2)) (fst (mdec t c off b)) = dec t c msg off.
Proof.
  intros Ho E ms l2 b2 E2. destruct (calls_left _ _ _ _ (wf_new msg) E) as [W L]. rewrite new_left in L.
  pose proof (peeks_grown ns _ _ _ (wf_new msg) E) as G. assert (bR b = O) as R0 by (apply (G eq_refl)).
  assert (rest_of msg (map BPeek ns) = msg) as Er by (clear; induction ns as [|n ns IH]; [reflexivity|exact IH]).
  rewrite Er in L. rewrite <- L.
  destruct (mdec_sim True t c off b W Ho (fun _ => R0)) as (W1 & _ & G1 & M).
  pose proof (peeks_grown ms _ _ _ W1 E2) as G2.
  destruct (fst (mdec t c off b)), (dec t c (left_bytes b) off); try contradiction; try reflexivity.
  destruct M as (-> & _ & (_ & M & _)). cbn [dmap]. rewrite (M I b2 G2). reflexivity.
Qed.
Theorem only_contents t c off msg cs l b : 0 <= off -> b_calls (new_reader msg) cs = Some (l, b) ->
  forall buf, zlen buf = 4096 ->
  dmap (fun w => blank (seen buf w)) (fst (mdec t c off b)) = dmap blank (dec t c (rest_of msg cs) off).
Proof.
  intros Ho E buf Hl. destruct (calls_left cs _ _ _ (wf_new msg) E) as [W L]. rewrite new_left in L. rewrite <- L.
  destruct (mdec_sim False t c off b W Ho ltac:(intros [])) as (_ & _ & _ & M).
  destruct (fst (mdec t c off b)), (dec t c (left_bytes b) off); try contradiction; try reflexivity.
  destruct M as (-> & _ & (_ & _ & M)). cbn [dmap]. rewrite M; [reflexivity|].
  pose proof bsz_Z as Hz. unfold bufsize in Hz. unfold zlen in Hl. lia.
Qed.

(** ** Tags and whole requests *)
Definition tag_fits (fresh : Prop) (b : breader) (e : Z * wval) (e' : Z * tagval) : Prop :=
  fst e = fst e' /\ fits fresh false b (snd e) (match snd e' with TagRaw d => VBytes (Some d) | TagObj v => v end).
Lemma varuint_nonneg l : forall next shift acc n v, 0 <= acc -> varuint_loop 32 l next shift acc = DOk n v -> 0 <= v.
Proof.
  induction l as [|x l IH]; intros next shift acc n v H; cbn [varuint_loop]; [discriminate|].
  assert (0 <= Z.lor acc (uwrap 32 (Z.shiftl (Z.land x 127) shift))) as K
    by (apply Z.lor_nonneg; split; [exact H|apply uwrap_range; lia]).
  destruct (Z.land x 128 =? 0); [intros E; injection E as _ <-; exact K|]. apply IH. exact K.
Qed.
Lemma tag_list_sim (fresh : Prop) n : forall off b, wf b -> 0 <= off -> (fresh -> bR b = O) ->
  sim (fun b => Forall2 (tag_fits fresh b)) b (m_tag_list n off b) (dec_tag_list (fun _ => None) (left_bytes b) n off).
Proof.
  induction n as [|n IH]; intros off b W Ho Hf; cbn [m_tag_list dec_tag_list].
  - apply sim_ok; [exact W|exact Ho|constructor].
  - destruct (varuint_sim 32 5 off b W Ho) as (W1 & L1 & G1 & M1). fold peek_varuint in M1. unfold peek_varuint in *.
    destruct (m_varuint_w 32 5 off b) as [[o1 tag| |] b1]; cbn [fst snd] in *;
      destruct (peek_varuint_w 32 5 (left_bytes b) off) as [o1' tag'| |]; try contradiction;
      try (repeat (split; [assumption|]); exact I).
    destruct M1 as (-> & N1 & E1). red in E1. subst tag'.
    destruct (varuint_sim 32 5 o1' b1 W1 N1) as (W2 & L2 & G2 & M2). rewrite L1 in *.
    destruct (m_varuint_w 32 5 o1' b1) as [[o2 tl| |] b2]; cbn [fst snd] in *;
      destruct (peek_varuint_w 32 5 (left_bytes b) o1') as [o2' tl'| |] eqn:Ev; try contradiction;
      try (split; [exact W2|]; split; [exact L2|]; split; [eapply grown_trans; eauto|]; exact I).
    destruct M2 as (-> & N2 & E2). red in E2. subst tl'.
    assert (0 <= tl) as Ht.
    { unfold peek_varuint_w in Ev. eapply varuint_nonneg; [|exact Ev]. lia. }
    assert (fresh -> bR b2 = O) as Hf2 by (intros F; apply G2, (G1 (Hf F))).
    destruct (rest_shows o2' tl b2 W2 N2 Ht) as (W3 & L3 & G3 & M3). rewrite L2 in *.
    destruct (m_peek (o2' + tl) b2) as [[d ok] b3]. destruct ok; cbn [fst snd] in *;
      destruct (peek (left_bytes b) (o2' + tl)) as [d'|]; try contradiction.
    + destruct M3 as (_ & N3 & K3).
      assert (fresh -> bR b3 = O) as Hf3 by (intros F; apply (G3 (Hf2 F))).
      specialize (IH (o2' + tl) b3 W3 N3 Hf3) as (W4 & L4 & G4 & M4). rewrite L3 in *.
      unfold m_map. split; [exact W4|]. split; [exact L4|]. split; [cbn [snd]; eapply grown_trans; [exact G1|eapply grown_trans; [exact G2|eapply grown_trans; eauto]]|].
      cbn [fst snd]. destruct (m_tag_list n (o2' + tl) b3) as [[e xs| |] b4]; cbn [fst snd dmap] in *;
        destruct (dec_tag_list (fun _ => None) (left_bytes b) n (o2' + tl)) as [e' vs| |]; try contradiction; cbn [dmap]; try exact I.
      destruct M4 as (-> & N4 & K4). split; [reflexivity|]. split; [exact N4|]. constructor; [|exact K4].
      split; [reflexivity|]. cbn [snd].
      apply (fits_grown fresh false b3 b4 _ _ G4).
      apply (view_fits fresh b3 (Some (bR b3 + Z.to_nat o2', Z.to_nat tl)%nat) (Some (skipn (Z.to_nat o2') d')) W3 Hf3 K3).
    + split; [exact W3|]. split; [exact L3|]. split; [eapply grown_trans; [exact G1|eapply grown_trans; eauto]|]. exact I.
Qed.
Lemma tags_sim (fresh : Prop) off b : wf b -> 0 <= off -> (fresh -> bR b = O) ->
  sim (fun b => Forall2 (tag_fits fresh b)) b (m_tags off b) (peekTags (fun _ => None) (left_bytes b) off).
Proof.
  intros W Ho Hf. unfold m_tags, peekTags.
  apply (sim_then (fun b => Forall2 (tag_fits fresh b)) same b (m_varuint_w 32 5 off b) (peek_varuint (left_bytes b) off)
    (fun next n b1 => m_tag_list (Z.to_nat n) next b1)
    (fun next n => dec_tag_list (fun _ => None) (left_bytes b) (Z.to_nat n) next)); [apply varuint_sim; assumption|].
  intros n a v _ _ N E W1 L1 G1. red in E. subst v. rewrite <- L1.
  apply tag_list_sim; [exact W1|exact N|]. intros F. apply (G1 (Hf F)).
Qed.

(** Read with the buffer of any moment before the next Discard, the tags are right. *)
Theorem tags_undiscarded off msg ns l b : 0 <= off -> b_calls (new_reader msg) (map BPeek ns) = Some (l, b) ->
  forall ms l2 b2, b_calls (snd (m_tags off b)) (map BPeek ms) = Some (l2, b2) ->
  dmap (map (fun e => (fst e, seen (bBuf b2) (snd e)))) (fst (m_tags off b)) =
  dmap (map (fun e => (fst e, match snd e with TagRaw d => VBytes (Some d) | TagObj v => v end))) (peekTags (fun _ => None) msg off).
Proof.
  intros Ho E ms l2 b2 E2. destruct (calls_left _ _ _ _ (wf_new msg) E) as [W L]. rewrite new_left in L.
  pose proof (peeks_grown ns _ _ _ (wf_new msg) E) as G. assert (bR b = O) as R0 by (apply (G eq_refl)).
  assert (rest_of msg (map BPeek ns) = msg) as Er by (clear; induction ns as [|n ns IH]; [reflexivity|exact IH]).
  rewrite Er in L. rewrite <- L.
  destruct (tags_sim True off b W Ho (fun _ => R0)) as (W1 & _ & G1 & M).
  pose proof (peeks_grown ms _ _ _ W1 E2) as G2.
  destruct (fst (m_tags off b)), (peekTags (fun _ => None) (left_bytes b) off); try contradiction; try reflexivity.
  destruct M as (-> & _ & M). cbn [dmap]. f_equal.
  induction M as [|e e' es es' (A & _ & B & _) _ IH]; [reflexivity|]. cbn [map]. rewrite A, (B I b2 G2), IH. reflexivity.
Qed.

Theorem request_copied th tb msg buf : windowless th = true -> windowless tb = true ->
  request_seen buf (fst (m_request th tb false msg)) = request_in th tb false msg.
Proof.
  intros Hh Hb. unfold m_request, request_in, peekObject.
  destruct (mdec_sim False th false 0 (new_reader msg) (wf_new msg) ltac:(lia) ltac:(intros [])) as (W1 & L1 & _ & M1).
  rewrite new_left in *.
  destruct (mdec th false 0 (new_reader msg)) as [[n1 h| |] b1]; cbn [fst snd] in *;
    destruct (dec th false msg 0) as [n1' h'| |]; try contradiction; try reflexivity.
  destruct M1 as (-> & N1 & (F1 & _)). specialize (F1 Hh).
  unfold m_string, peekString. destruct (data16_sim n1' b1 W1 N1) as (W2 & L2 & _ & M2). rewrite L1 in *.
  destruct (m_data16 n1' b1) as [[n2 c| |] b2]; unfold m_map; cbn [fst snd dmap] in *;
    destruct (peek_data16 msg n1') as [n2' c'| |]; try contradiction; try reflexivity.
  destruct M2 as (-> & N2 & E2). red in E2. subst c'. cbn [dmap].
  destruct (b_discard_spec b2 n2' W2) as (b3 & -> & W3 & L3). rewrite L2 in L3.
  destruct (mdec_sim False tb false 0 b3 W3 ltac:(lia) ltac:(intros [])) as (_ & _ & _ & M4). rewrite L3 in M4.
  destruct (fst (mdec tb false 0 b3)), (dec tb false (discard msg n2') 0); try contradiction; try reflexivity.
  destruct M4 as (-> & _ & (F4 & _)). unfold request_seen. cbn [dmap map]. unfold or_empty. cbn. rewrite F1, (F4 Hb). reflexivity.
Qed.

(** ** Requests of the mock, and what goes wrong otherwise *)
(** Ten bytes of header, then a body of 22: a compact byte string of 20 bytes and a number. *)
Definition view_type : ty := TStruct [(plain, TCompactNullableBytes); (plain, TVarInt)].
Definition view_body : bytes := 42 :: map Z.of_nat (seq 1 20) ++ [14].
Definition view_header : ty := TStruct [(plain, TInt16); (plain, TInt16); (plain, TInt32)].
Definition view_msg : bytes := [0; 3; 0; 1; 0; 0; 0; 9] ++ [0; 0] ++ view_body.
Lemma view_moves : exists n h c v v',
  request_in view_header view_type false view_msg = DOk n (h, c, [], v) /\
  (let m := m_request view_header view_type false view_msg in
   request_seen (bBuf (snd m)) (fst m) = DOk n (h, c, [], v')) /\
  v = VStruct [VBytes (Some (map Z.of_nat (seq 1 20))); VInt 7] /\
  v' = VStruct [VBytes (Some ([11; 12; 13; 14; 15; 16; 17; 18; 19; 20; 14] ++ [12; 13; 14; 15; 16; 17; 18; 19; 20])); VInt 7].
Proof. do 5 eexists. split; [vm_compute; reflexivity|]. split; [vm_compute; reflexivity|]. split; vm_compute; reflexivity. Qed.

(** A header with one tag of 20 bytes, then the body of a Metadata request that
    names one topic of 4070 bytes. *)
Definition tags_body : bytes := [0; 0; 0; 1; 15; 230] ++ repeat 7 4070.
Definition tags_msg : bytes := [0; 3; 0; 1; 0; 0; 0; 9] ++ [0; 0] ++ [1; 5; 20] ++ map Z.of_nat (seq 1 20) ++ tags_body.
Definition tags_type : ty := TStruct [(plain, TSlice TString)].
Lemma tags_move : exists n h c v tags tags',
  request_in view_header tags_type true tags_msg = DOk n (h, c, tags, v) /\
  (let m := m_request view_header tags_type true tags_msg in
   request_seen (bBuf (snd m)) (fst m) = DOk n (h, c, tags', v)) /\
  tags = [(5, VBytes (Some (map Z.of_nat (seq 1 20))))] /\ tags' = [(5, VBytes (Some (repeat 7 20)))].
Proof. do 6 eexists. split; [vm_compute; reflexivity|]. split; [vm_compute; reflexivity|]. split; vm_compute; reflexivity. Qed.
Lemma view_refuted : exists tb msg n h c v v',
  request_in view_header tb false msg = DOk n (h, c, [], v) /\
  (let m := m_request view_header tb false msg in
   request_seen (bBuf (snd m)) (fst m) = DOk n (h, c, [], v')) /\ v <> v'.
Proof.
  destruct view_moves as (n & h & c & v & v' & A & B & C & D). exists view_type, view_msg, n, h, c, v, v'.
  split; [exact A|]. split; [exact B|]. rewrite C, D. discriminate.
Qed.
Lemma tags_refuted : exists msg n h c v tags tags',
  request_in view_header tags_type true msg = DOk n (h, c, tags, v) /\
  (let m := m_request view_header tags_type true msg in
   request_seen (bBuf (snd m)) (fst m) = DOk n (h, c, tags', v)) /\ tags <> tags'.
Proof.
  destruct tags_move as (n & h & c & v & tags & tags' & A & B & C & D). exists tags_msg, n, h, c, v, tags, tags'.
  split; [exact A|]. split; [exact B|]. rewrite C, D. discriminate.
Qed.
