(** * BufioReader: bufio.Reader over a bytes.Buffer, as the Go library does it.

    GoBase.v describes the reader by the bytes not yet discarded.  Here is the
    buffer itself, transcribed from Go's bufio/bufio.go and bytes/buffer.go (part
    of the Go distribution, not of the repository), so that the description can
    be proved.  Users: kafka-client.go:133 ([bufio.NewReader(msg)]), 214, 223;
    inbound-utils.go:37-46; decoder.go throughout. *)
From Verif Require Import GoBase.
From Coq Require Import List ZArith Lia Bool.
Import ListNotations.
Open Scope Z_scope.

(** bufio.Reader: [buf], [r], [w], [err] (only io.EOF occurs); [bSrc] are the
    unread bytes of the bytes.Buffer behind it. *)
Record breader := BR { bBuf : bytes; bR : nat; bW : nat; bErr : bool; bSrc : bytes }.

(** bufio.NewReader: a buffer of 4096 bytes. *)
Definition bsz : nat := Z.to_nat bufsize.
Definition new_reader (msg : bytes) : breader := BR (repeat 0 bsz) 0 0 false msg.

(** b.buf[b.r:b.w] *)
Definition buffered (b : breader) : bytes := skipn (bR b) (firstn (bW b) (bBuf b)).

(** fill, first half: slide existing data to the beginning, [copy(b.buf, b.buf[b.r:b.w])]. *)
Definition slide (b : breader) : breader :=
  match bR b with
  | O => b
  | S _ => BR (buffered b ++ skipn (length (buffered b)) (bBuf b)) 0 (bW b - bR b) (bErr b) (bSrc b)
  end.
(** fill, second half: [b.rd.Read(b.buf[b.w:])].  bytes.Buffer.Read copies as
    much as fits; it reports EOF, and no bytes, exactly when nothing is left.  So
    the loop over empty reads ends in its first round.  [None]: the panic "tried
    to fill full buffer". *)
Definition fill (b0 : breader) : option breader :=
  let b := slide b0 in
  if (length (bBuf b) <=? bW b)%nat then None
  else
    match bSrc b with
    | [] => Some (BR (bBuf b) (bR b) (bW b) true [])
    | _ =>
        let n := Nat.min (length (bBuf b) - bW b) (length (bSrc b)) in
        Some (BR (firstn (bW b) (bBuf b) ++ firstn n (bSrc b) ++ skipn (bW b + n) (bBuf b))
                 (bR b) (bW b + n) (bErr b) (skipn n (bSrc b)))
    end.

(** Peek: the loop; [fuel] bounds the rounds, [None] also stands for "not done yet". *)
Definition want_more (b : breader) (n : Z) : bool :=
  (Z.of_nat (bW b - bR b) <? n) && (bW b - bR b <? length (bBuf b))%nat && negb (bErr b).
Fixpoint peek_loop (fuel : nat) (b : breader) (n : Z) : option breader :=
  if want_more b n then
    match fuel with
    | O => None
    | S f => match fill b with Some b' => peek_loop f b' n | None => None end
    end
  else Some b.
(** Peek: the slice returned, whether there is no error, and the reader after. *)
Definition b_peek (b : breader) (n : Z) : option (bytes * bool * breader) :=
  if n <? 0 then Some ([], false, b)
  else
    match peek_loop 3 b n with
    | Some b1 =>
        if Z.of_nat (length (bBuf b1)) <? n then Some (buffered b1, false, b1)
        else
          let avail := (bW b1 - bR b1)%nat in
          if Z.of_nat avail <? n
          then Some (buffered b1, false, BR (bBuf b1) (bR b1) (bW b1) false (bSrc b1))   (* readErr clears err *)
          else Some (firstn (Z.to_nat n) (buffered b1), true, b1)
    | None => None
    end.

(** Discard: the loop; every round but the last takes at least one byte. *)
Fixpoint discard_loop (fuel : nat) (b : breader) (remain : nat) : option breader :=
  match fuel with
  | O => None
  | S f =>
      match (if (bW b - bR b =? 0)%nat then fill b else Some b) with
      | None => None
      | Some b1 =>
          let skip := Nat.min (bW b1 - bR b1) remain in
          let b2 := BR (bBuf b1) (bR b1 + skip) (bW b1) (bErr b1) (bSrc b1) in
          if (remain - skip =? 0)%nat then Some b2
          else if bErr b2 then Some (BR (bBuf b2) (bR b2) (bW b2) false (bSrc b2))
          else discard_loop f b2 (remain - skip)
      end
  end.
Definition b_discard (b : breader) (n : Z) : option breader :=
  if n <=? 0 then Some b else discard_loop (S (Z.to_nat n)) b (Z.to_nat n).

(** A sequence of calls, with what each returned. *)
Inductive bcall := BPeek (n : Z) | BDiscard (n : Z).
Fixpoint b_calls (b : breader) (cs : list bcall) : option (list (bytes * bool) * breader) :=
  match cs with
  | [] => Some ([], b)
  | BPeek n :: cs' =>
      match b_peek b n with
      | Some (d, ok, b1) =>
          match b_calls b1 cs' with Some (l, b2) => Some ((d, ok) :: l, b2) | None => None end
      | None => None
      end
  | BDiscard n :: cs' =>
      match b_discard b n with Some b1 => b_calls b1 cs' | None => None end
  end.
(** The same by GoBase.v, on the bytes not yet discarded. *)
Fixpoint a_calls (r : bytes) (cs : list bcall) : list (bytes * bool) :=
  match cs with
  | [] => []
  | BPeek n :: cs' =>
      (peek_avail r n, match peek r n with Some _ => true | None => false end) :: a_calls r cs'
  | BDiscard n :: cs' => a_calls (discard r n) cs'
  end.

(** ** Proof *)
Lemma bsz_Z : Z.of_nat bsz = bufsize.
Proof. reflexivity. Qed.
Lemma bsz_pos : (0 < bsz)%nat.
Proof. pose proof bsz_Z as H. unfold bufsize in H. lia. Qed.
Opaque bsz.
Record wf (b : breader) : Prop := {
  wf_len : length (bBuf b) = bsz;
  wf_rw : (bR b <= bW b)%nat;
  wf_w : (bW b <= bsz)%nat;
  wf_err : bErr b = true -> bSrc b = []
}.
Definition left_bytes (b : breader) : bytes := buffered b ++ bSrc b.

Lemma buffered_len b : wf b -> length (buffered b) = (bW b - bR b)%nat.
Proof. intros [H1 H2 H3 _]. unfold buffered. rewrite skipn_length, firstn_length. lia. Qed.

Lemma slide_spec b : wf b -> wf (slide b) /\ bR (slide b) = O /\ buffered (slide b) = buffered b /\
  bErr (slide b) = bErr b /\ bSrc (slide b) = bSrc b.
Proof.
  intros W. pose proof (buffered_len b W) as L. destruct W as [H1 H2 H3 H4]. unfold slide.
  destruct (bR b) as [|r] eqn:E.
  - split; [constructor; auto; lia|]. auto.
  - assert (firstn (bW b - S r) (buffered b ++ skipn (length (buffered b)) (bBuf b)) = buffered b) as F.
    { rewrite firstn_app. rewrite L, Nat.sub_diag. cbn [firstn]. rewrite app_nil_r. apply firstn_all2. lia. }
    split; [|split; [reflexivity|split; [|split; reflexivity]]].
    + constructor; cbn [bBuf bR bW bErr bSrc]; [|lia|lia|exact H4]. rewrite app_length, skipn_length. lia.
    + unfold buffered at 1. cbn [bBuf bR bW]. cbn [skipn]. exact F.
Qed.

Lemma fill_spec b : wf b -> (bW b - bR b < bsz)%nat -> exists b', fill b = Some b' /\ wf b' /\
  left_bytes b' = left_bytes b /\
  (bSrc b = [] -> bErr b' = true) /\
  (bSrc b <> [] -> bErr b' = bErr b /\ (bW b' - bR b' = Nat.min bsz (length (left_bytes b)))%nat /\ (bW b - bR b < bW b' - bR b')%nat).
Proof.
  intros W Hl. pose proof (buffered_len b W) as L0. destruct (slide_spec b W) as (W1 & R1 & B1 & E1 & S1).
  pose proof (buffered_len _ W1) as L1. rewrite B1, L0, R1, Nat.sub_0_r in L1.
  unfold fill. destruct W1 as [P1 P2 P3 P4]. rewrite P1.
  destruct (bsz <=? bW (slide b))%nat eqn:E; [apply Nat.leb_le in E; lia|].
  rewrite S1 in *. destruct (bSrc b) as [|x src] eqn:Es0; [pose proof Es0 as Es|assert (exists src0, src0 = bSrc b) as [src0 Es] by eauto].
  - eexists. split; [reflexivity|]. cbn [bSrc bErr].
    split; [constructor; cbn [bBuf bR bW bErr bSrc]; auto|]. split.
    + unfold left_bytes at 1. cbn [bSrc]. unfold buffered at 1. cbn [bBuf bR bW].
      unfold left_bytes. rewrite Es, <- B1. reflexivity.
    + split; [reflexivity|]. intros []; reflexivity.
  - clear src0 Es. assert (bSrc b <> []) as Hne by (rewrite Es0; discriminate).
    rewrite <- Es0 in S1, P4 |- *. clear Es0. apply Nat.leb_gt in E.
    set (n := Nat.min (bsz - bW (slide b)) (length (bSrc b))).
    assert (length (firstn (bW (slide b)) (bBuf (slide b))) = bW (slide b)) as Lf by (rewrite firstn_length; lia).
    assert (length (firstn n (bSrc b)) = n) as Ln by (rewrite firstn_length; unfold n; lia).
    eexists. split; [reflexivity|]. cbn [bSrc bErr bW bR].
    assert (buffered (BR (firstn (bW (slide b)) (bBuf (slide b)) ++ firstn n (bSrc b) ++ skipn (bW (slide b) + n) (bBuf (slide b)))
              (bR (slide b)) (bW (slide b) + n) (bErr (slide b)) (skipn n (bSrc b))) = buffered b ++ firstn n (bSrc b)) as Bf.
    { unfold buffered at 1. cbn [bBuf bR bW]. rewrite R1. cbn [skipn].
      rewrite firstn_app, Lf. replace (bW (slide b) + n - bW (slide b))%nat with n by lia.
      rewrite firstn_app, Ln, Nat.sub_diag. cbn [firstn]. rewrite app_nil_r.
      rewrite (firstn_all2 (firstn n (bSrc b))) by lia. rewrite firstn_all2 by lia. f_equal.
      unfold buffered in B1 at 1. rewrite R1 in B1. cbn [skipn] in B1. exact B1. }
    split; [|split; [|split]].
    + constructor; cbn [bBuf bR bW bErr bSrc].
      * rewrite !app_length, skipn_length. lia.
      * lia.
      * unfold n. lia.
      * intros He. specialize (P4 He). rewrite P4. destruct n; reflexivity.
    + unfold left_bytes at 1. rewrite Bf. cbn [bSrc]. rewrite <- app_assoc, firstn_skipn. reflexivity.
    + intros Hn. exfalso. congruence.
    + intros Hn. split; [exact E1|]. unfold left_bytes. rewrite app_length, L0, R1.
      assert (length (bSrc b) <> O) by (destruct (bSrc b); [congruence|discriminate]).
      unfold n. lia.
Qed.

Lemma want_false b n : wf b -> want_more b n = false <->
  (n <= Z.of_nat (bW b - bR b) \/ (bW b - bR b)%nat = bsz \/ bErr b = true).
Proof.
  intros [H1 H2 H3 _]. unfold want_more. rewrite H1. destruct (bErr b); cbn [negb]; rewrite ?andb_false_r, ?andb_true_r.
  - split; auto.
  - rewrite andb_false_iff, Z.ltb_ge, Nat.ltb_ge. split; [intros [H|H]; [auto|right; left; lia]|intros [H|[H|H]]; [auto|right; lia|discriminate]].
Qed.
Lemma want_true b n : wf b -> want_more b n = true ->
  Z.of_nat (bW b - bR b) < n /\ (bW b - bR b < bsz)%nat /\ bErr b = false.
Proof.
  intros [H1 H2 H3 _]. unfold want_more. rewrite H1, !andb_true_iff, Z.ltb_lt, Nat.ltb_lt, negb_true_iff. tauto.
Qed.
Lemma loop_spec b n : wf b -> exists b', peek_loop 3 b n = Some b' /\ wf b' /\ left_bytes b' = left_bytes b /\
  want_more b' n = false.
Proof.
  intros W. cbn [peek_loop]. destruct (want_more b n) eqn:M; [|exists b; auto].
  destruct (want_true b n W M) as (A1 & A2 & A3).
  destruct (fill_spec b W A2) as (b1 & -> & W1 & L1 & E1 & F1).
  destruct (want_more b1 n) eqn:M1; [|exists b1; auto].
  destruct (want_true b1 n W1 M1) as (B1 & B2 & B3).
  destruct (fill_spec b1 W1 B2) as (b2 & -> & W2 & L2 & E2 & F2).
  destruct (want_more b2 n) eqn:M2; [|exists b2; rewrite L2; auto].
  destruct (want_true b2 n W2 M2) as (C1 & C2 & C3). exfalso.
  (* after the first fill either the buffer is full or nothing is left behind it *)
  destruct (bSrc b) as [|x l] eqn:Sb; [rewrite E1 in B3 by reflexivity; discriminate|].
  destruct F1 as (_ & K1 & _); [discriminate|].
  destruct (bSrc b1) as [|x1 l1] eqn:Sb1; [rewrite E2 in C3 by reflexivity; discriminate|].
  destruct F2 as (_ & K2 & K2'); [discriminate|]. rewrite L1 in K2. lia.
Qed.

Lemma firstn_left b k : (k <= length (buffered b))%nat -> firstn k (left_bytes b) = firstn k (buffered b).
Proof. intros H. unfold left_bytes. rewrite firstn_app. replace (k - length (buffered b))%nat with O by lia. cbn. apply app_nil_r. Qed.
Lemma left_len b : wf b -> length (left_bytes b) = (bW b - bR b + length (bSrc b))%nat.
Proof. intros W. unfold left_bytes. rewrite app_length, buffered_len by exact W. reflexivity. Qed.

Lemma b_peek_spec b n : wf b -> exists d ok b', b_peek b n = Some (d, ok, b') /\ wf b' /\ left_bytes b' = left_bytes b /\
  d = peek_avail (left_bytes b) n /\ ok = match peek (left_bytes b) n with Some _ => true | None => false end.
Proof.
  intros W. unfold b_peek. destruct (n <? 0) eqn:N.
  { exists [], false, b. split; [reflexivity|]. split; [exact W|]. split; [reflexivity|]. apply Z.ltb_lt in N. split.
    - unfold peek_avail. replace (Z.to_nat (Z.min n bufsize)) with O by lia. reflexivity.
    - unfold peek. replace (n <? 0) with true by lia. reflexivity. }
  apply Z.ltb_ge in N. destruct (loop_spec b n W) as (b1 & -> & W1 & L1 & M1).
  pose proof (buffered_len b1 W1) as Lb. pose proof (left_len b1 W1) as Ll. pose proof bsz_Z as Hz.
  destruct W1 as [P1 P2 P3 P4]. rewrite P1. rewrite <- L1.
  assert (wf b1) as W1 by (constructor; assumption).
  destruct (Z.of_nat bsz <? n) eqn:Hn.
  - (* more than the buffer holds *)
    apply Z.ltb_lt in Hn. exists (buffered b1), false, b1. split; [reflexivity|]. split; [exact W1|]. split; [reflexivity|].
    apply want_false in M1; [|exact W1]. split.
    + unfold peek_avail. rewrite Z.min_r by lia. rewrite <- Hz, Nat2Z.id.
      destruct M1 as [M1|[M1|M1]]; [lia| |].
      * rewrite firstn_left by lia. symmetry. apply firstn_all2. lia.
      * unfold left_bytes. rewrite (P4 M1), app_nil_r. symmetry. apply firstn_all2. lia.
    + unfold peek. replace (bufsize <? n) with true by lia. rewrite orb_true_r. reflexivity.
  - apply Z.ltb_ge in Hn. destruct (Z.of_nat (bW b1 - bR b1) <? n) eqn:Ha.
    + (* not enough data *)
      apply Z.ltb_lt in Ha. apply want_false in M1; [|exact W1].
      assert (bErr b1 = true) as Er by (destruct M1 as [M1|[M1|M1]]; [lia|lia|exact M1]).
      exists (buffered b1), false, (BR (bBuf b1) (bR b1) (bW b1) false (bSrc b1)).
      split; [reflexivity|]. split; [constructor; cbn; auto; discriminate|]. split; [reflexivity|].
      assert (left_bytes b1 = buffered b1) as El by (unfold left_bytes; rewrite (P4 Er); apply app_nil_r).
      rewrite El. split.
      * unfold peek_avail. symmetry. apply firstn_all2. lia.
      * unfold peek, zlen. replace (Z.of_nat (length (buffered b1)) <? n) with true by lia. rewrite orb_true_r. reflexivity.
    + apply Z.ltb_ge in Ha. exists (firstn (Z.to_nat n) (buffered b1)), true, b1.
      split; [reflexivity|]. split; [exact W1|]. split; [reflexivity|]. split.
      * unfold peek_avail. rewrite Z.min_l by lia. symmetry. apply firstn_left. lia.
      * unfold peek, zlen. replace (n <? 0) with false by lia. replace (bufsize <? n) with false by lia.
        replace (Z.of_nat (length (left_bytes b1)) <? n) with false by lia. reflexivity.
Qed.

Lemma skipn_twice {A} (x y : nat) (l : list A) : skipn x (skipn y l) = skipn (x + y) l.
Proof.
  revert l. induction y as [|y IH]; intros l; [rewrite Nat.add_0_r; reflexivity|].
  rewrite Nat.add_succ_r. destruct l; [destruct x; reflexivity|]. cbn [skipn]. apply IH.
Qed.
Lemma skip_some b k : wf b -> (k <= bW b - bR b)%nat ->
  let b2 := BR (bBuf b) (bR b + k) (bW b) (bErr b) (bSrc b) in wf b2 /\ left_bytes b2 = skipn k (left_bytes b).
Proof.
  intros W Hk b2. pose proof (buffered_len b W) as L. destruct W as [P1 P2 P3 P4]. split.
  - constructor; cbn; auto; lia.
  - unfold left_bytes, b2. cbn [bSrc]. rewrite skipn_app. replace (k - length (buffered b))%nat with O by lia. cbn [skipn].
    f_equal. unfold buffered. cbn [bBuf bR bW]. rewrite skipn_twice. f_equal. lia.
Qed.
Lemma discard_spec fuel : forall b k, wf b -> (0 < k)%nat -> (k < fuel)%nat ->
  exists b', discard_loop fuel b k = Some b' /\ wf b' /\ left_bytes b' = skipn k (left_bytes b).
Proof.
  pose proof bsz_pos as Hb.
  induction fuel as [|fuel IH]; intros b k W Hk Hf; [lia|]. cbn [discard_loop].
  assert (exists b1, (if (bW b - bR b =? 0)%nat then fill b else Some b) = Some b1 /\ wf b1 /\ left_bytes b1 = left_bytes b /\
            ((0 < bW b1 - bR b1)%nat \/ bErr b1 = true)) as (b1 & -> & W1 & L1 & H1).
  { destruct (bW b - bR b =? 0)%nat eqn:E.
    - apply Nat.eqb_eq in E. destruct (fill_spec b W ltac:(lia)) as (b1 & F & W1 & L1 & E1 & F1). exists b1.
      repeat (split; [assumption|]). destruct (bSrc b); [right; apply E1; reflexivity|left].
      destruct F1 as (_ & _ & F1); [discriminate|]. lia.
    - apply Nat.eqb_neq in E. exists b. repeat (split; [assumption || reflexivity|]). left. lia. }
  set (sk := Nat.min (bW b1 - bR b1) k).
  destruct (skip_some b1 sk W1 ltac:(unfold sk; lia)) as [W2 L2]. cbn zeta in *.
  set (b2 := BR (bBuf b1) (bR b1 + sk) (bW b1) (bErr b1) (bSrc b1)) in *.
  destruct (k - sk =? 0)%nat eqn:E.
  - apply Nat.eqb_eq in E. assert (sk = k) as Es by (unfold sk in *; lia). exists b2. rewrite L2, Es, L1. auto.
  - apply Nat.eqb_neq in E. assert (sk = (bW b1 - bR b1)%nat) as Es by (unfold sk in *; lia).
    pose proof (left_len b1 W1) as Ll. destruct (bErr b2) eqn:Er.
    + exists (BR (bBuf b2) (bR b2) (bW b2) false (bSrc b2)). split; [reflexivity|]. split.
      * destruct W2. constructor; cbn; auto; discriminate.
      * change (left_bytes (BR (bBuf b2) (bR b2) (bW b2) false (bSrc b2))) with (left_bytes b2). rewrite L2, <- L1.
        pose proof (wf_err _ W1 Er) as Sr. rewrite Sr in Ll. cbn in Ll.
        rewrite !skipn_all2 by lia. reflexivity.
    + destruct H1 as [H1|H1]; [|unfold b2 in Er; cbn in Er; congruence].
      destruct (IH b2 (k - sk)%nat W2 ltac:(lia) ltac:(lia)) as (b' & F & W' & L'). exists b'. split; [exact F|].
      split; [exact W'|]. rewrite L', L2, L1, skipn_twice. f_equal. lia.
Qed.
Lemma b_discard_spec b n : wf b -> exists b', b_discard b n = Some b' /\ wf b' /\ left_bytes b' = discard (left_bytes b) n.
Proof.
  intros W. unfold b_discard, discard. destruct (n <=? 0) eqn:N.
  - exists b. apply Z.leb_le in N. replace (Z.to_nat n) with O by lia. auto.
  - apply Z.leb_gt in N. apply discard_spec; [exact W|lia|lia].
Qed.

Lemma calls_spec cs : forall b, wf b -> exists b', b_calls b cs = Some (a_calls (left_bytes b) cs, b') /\ wf b'.
Proof.
  induction cs as [|[n|n] cs IH]; intros b W; cbn [b_calls a_calls].
  - exists b. auto.
  - destruct (b_peek_spec b n W) as (d & ok & b1 & -> & W1 & L1 & -> & ->).
    destruct (IH b1 W1) as (b2 & -> & W2). exists b2. rewrite L1. auto.
  - destruct (b_discard_spec b n W) as (b1 & -> & W1 & L1). destruct (IH b1 W1) as (b2 & -> & W2).
    exists b2. rewrite L1. auto.
Qed.
Lemma wf_new msg : wf (new_reader msg).
Proof. constructor; cbn; try lia; try discriminate. apply repeat_length. Qed.

Theorem bufio_exact msg cs : exists b, b_calls (new_reader msg) cs = Some (a_calls msg cs, b).
Proof. destruct (calls_spec cs _ (wf_new msg)) as (b & H & _). exists b. exact H. Qed.

(** ** What the calls should return, from the message alone

    [pos] bytes of the message have been discarded.  A [Peek] of [n] bytes shows
    the next [n] bytes of the message, cut off at 4096 and at its end, and
    reports an error iff that is not [n] bytes.  A [Discard] moves forward, at
    most to the end. *)
Fixpoint answers (msg : bytes) (pos : Z) (cs : list bcall) : list (bytes * bool) :=
  match cs with
  | [] => []
  | BPeek n :: cs' =>
      (firstn (Z.to_nat (Z.min n 4096)) (skipn (Z.to_nat pos) msg),
       (0 <=? n) && (n <=? 4096) && (pos + n <=? Z.of_nat (length msg))) :: answers msg pos cs'
  | BDiscard n :: cs' => answers msg (Z.min (Z.of_nat (length msg)) (pos + Z.max 0 n)) cs'
  end.

Lemma a_calls_answers msg cs : forall pos, 0 <= pos <= Z.of_nat (length msg) ->
  a_calls (skipn (Z.to_nat pos) msg) cs = answers msg pos cs.
Proof.
  induction cs as [|[n|n] cs IH]; intros pos Hp; cbn [a_calls answers]; [reflexivity| |].
  - rewrite IH by exact Hp. f_equal. unfold peek_avail, peek, zlen, bufsize. f_equal.
    rewrite skipn_length.
    transitivity (negb ((n <? 0) || (4096 <? n) || (Z.of_nat (length msg - Z.to_nat pos) <? n)));
      [destruct ((n <? 0) || (4096 <? n) || (Z.of_nat (length msg - Z.to_nat pos) <? n)); reflexivity|].
    rewrite !negb_orb, <- !Z.leb_antisym. f_equal.
    apply eq_true_iff_eq. rewrite !Z.leb_le. lia.
  - rewrite <- IH by lia. f_equal. unfold discard. rewrite skipn_twice.
    destruct (Z_le_gt_dec (pos + Z.max 0 n) (Z.of_nat (length msg))) as [G|G].
    + f_equal. lia.
    + rewrite !skipn_all2 by lia. reflexivity.
Qed.
Theorem bufio_answers msg cs : exists b, b_calls (new_reader msg) cs = Some (answers msg 0 cs, b).
Proof.
  destruct (bufio_exact msg cs) as [b H]. exists b. rewrite H, <- (a_calls_answers msg cs 0) by lia. reflexivity.
Qed.
Theorem model_answers msg cs : a_calls msg cs = answers msg 0 cs.
Proof. rewrite <- (a_calls_answers msg cs 0) by lia. reflexivity. Qed.
