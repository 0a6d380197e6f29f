(** * BufioWriter: bufio.Writer over a bytes.Buffer, as the Go library does it.

    The encoder model returns the bytes an encoder function writes.  The code
    writes them through a bufio.Writer in front of a bytes.Buffer, flushes, and
    takes the buffer's bytes: kafka-client.go:165-166, 235; encoder.go:467-470,
    518-521; sync_group.go:73-76.  Here is that writer, transcribed from Go's
    bufio/bufio.go (part of the Go distribution, not of the repository). *)
From Verif Require Import GoBase.
From Coq Require Import List ZArith Lia Bool.
Import ListNotations.
Open Scope Z_scope.

(** bufio.Writer: [buf] and [n]; [wOut] is what the bytes.Buffer behind it holds.
    [err] stays nil: bytes.Buffer.Write never fails. *)
Record bwriter := BW { wBuf : bytes; wN : nat; wOut : bytes }.

(** bufio.NewWriter: a buffer of 4096 bytes. *)
Definition wsz : nat := Z.to_nat 4096.
Definition new_writer : bwriter := BW (repeat 0 wsz) 0 [].
Definition available (w : bwriter) : nat := length (wBuf w) - wN w.

(** Flush *)
Definition flush (w : bwriter) : bwriter :=
  if (wN w =? 0)%nat then w else BW (wBuf w) 0 (wOut w ++ firstn (wN w) (wBuf w)).

(** [copy(b.buf[b.n:], p)], [b.n += n]: the writer after, and how many bytes. *)
Definition copy_in (w : bwriter) (p : bytes) : bwriter * nat :=
  let n := Nat.min (available w) (length p) in
  (BW (firstn (wN w) (wBuf w) ++ firstn n p ++ skipn (wN w + n) (wBuf w)) (wN w + n) (wOut w), n).

(** Write: the loop; [None]: not done yet. *)
Fixpoint write_loop (fuel : nat) (w : bwriter) (p : bytes) : option (bwriter * bytes) :=
  if (available w <? length p)%nat then
    match fuel with
    | O => None
    | S f =>
        if (wN w =? 0)%nat then write_loop f (BW (wBuf w) (wN w) (wOut w ++ p)) []
        else let '(w1, n) := copy_in w p in write_loop f (flush w1) (skipn n p)
    end
  else Some (w, p).
Definition w_write (w : bwriter) (p : bytes) : option bwriter :=
  match write_loop 2 w p with Some (w1, p1) => Some (fst (copy_in w1 p1)) | None => None end.

(** WriteByte; [None]: index out of range. *)
Definition w_byte (w : bwriter) (c : Z) : option bwriter :=
  let w1 := if (available w =? 0)%nat then flush w else w in
  if (wN w1 <? length (wBuf w1))%nat
  then Some (BW (firstn (wN w1) (wBuf w1) ++ [c] ++ skipn (S (wN w1)) (wBuf w1)) (S (wN w1)) (wOut w1))
  else None.

Inductive wcall := WWrite (p : bytes) | WByte (c : Z).
Fixpoint w_calls (w : bwriter) (cs : list wcall) : option bwriter :=
  match cs with
  | [] => Some w
  | WWrite p :: cs' => match w_write w p with Some w1 => w_calls w1 cs' | None => None end
  | WByte c :: cs' => match w_byte w c with Some w1 => w_calls w1 cs' | None => None end
  end.

(** ** What should come out *)
Definition written (cs : list wcall) : bytes :=
  flat_map (fun c => match c with WWrite p => p | WByte c => [c] end) cs.

(** ** Proof *)
Lemma wsz_pos : (0 < wsz)%nat.
Proof. unfold wsz. lia. Qed.
Opaque wsz.
Record wwf (w : bwriter) : Prop := { wwf_len : length (wBuf w) = wsz; wwf_n : (wN w <= wsz)%nat }.
(** everything written so far *)
Definition sofar (w : bwriter) : bytes := wOut w ++ firstn (wN w) (wBuf w).

Lemma flush_spec w : wwf w -> wwf (flush w) /\ wN (flush w) = O /\ wOut (flush w) = sofar w /\ sofar (flush w) = sofar w.
Proof.
  intros [H1 H2]. unfold flush, sofar. destruct (wN w) as [|n] eqn:E; cbn [Nat.eqb].
  - rewrite E. cbn [firstn]. rewrite app_nil_r. split; [constructor; lia|]. auto.
  - cbn [wN wBuf wOut firstn]. rewrite app_nil_r. split; [constructor; cbn; lia|]. auto.
Qed.
Lemma copy_spec w p : wwf w -> let '(w1, n) := copy_in w p in
  wwf w1 /\ n = Nat.min (available w) (length p) /\ wN w1 = (wN w + n)%nat /\ wOut w1 = wOut w /\
  sofar w1 = sofar w ++ firstn n p.
Proof.
  intros [H1 H2]. unfold copy_in, available. rewrite H1.
  set (n := Nat.min (wsz - wN w) (length p)).
  assert (length (firstn (wN w) (wBuf w)) = wN w) as Lf by (rewrite firstn_length; lia).
  assert (length (firstn n p) = n) as Ln by (rewrite firstn_length; unfold n; lia).
  split; [constructor; cbn [wBuf wN]; [rewrite !app_length, skipn_length; lia|unfold n; lia]|].
  split; [reflexivity|]. split; [reflexivity|]. split; [reflexivity|].
  unfold sofar. cbn [wBuf wN wOut]. rewrite <- app_assoc. f_equal.
  rewrite firstn_app, Lf. replace (wN w + n - wN w)%nat with n by lia.
  rewrite (firstn_all2 (firstn (wN w) (wBuf w))) by lia. f_equal.
  rewrite firstn_app, Ln, Nat.sub_diag, (firstn_all2 (firstn n p)) by lia. cbn [firstn]. apply app_nil_r.
Qed.
Lemma loop_done w p f : (length p <= available w)%nat -> write_loop f w p = Some (w, p).
Proof. intros H. apply Nat.ltb_ge in H. destruct f; cbn [write_loop]; rewrite H; reflexivity. Qed.
(** a write into an empty buffer *)
Lemma loop_empty w p f : wwf w -> wN w = O -> exists w1 p1, write_loop (S f) w p = Some (w1, p1) /\ wwf w1 /\
  (length p1 <= available w1)%nat /\ sofar w1 ++ p1 = sofar w ++ p.
Proof.
  intros [H1 H2] E. destruct (le_lt_dec (length p) (available w)) as [G|G].
  - exists w, p. rewrite loop_done by exact G. repeat split; auto.
  - cbn [write_loop]. apply Nat.ltb_lt in G. rewrite G, E. cbn [Nat.eqb]. rewrite loop_done by (cbn; lia).
    eexists _, _. split; [reflexivity|]. split; [constructor; cbn; lia|]. split; [cbn; lia|].
    unfold sofar. cbn [wBuf wN wOut firstn]. rewrite E. cbn [firstn]. rewrite !app_nil_r. reflexivity.
Qed.
Lemma loop_total w p : wwf w -> exists w1 p1, write_loop 2 w p = Some (w1, p1) /\ wwf w1 /\
  (length p1 <= available w1)%nat /\ sofar w1 ++ p1 = sofar w ++ p.
Proof.
  intros W. destruct (wN w) as [|n] eqn:E; [apply loop_empty; auto|].
  destruct (le_lt_dec (length p) (available w)) as [G|G].
  - exists w, p. rewrite loop_done by exact G. auto.
  - replace (write_loop 2 w p) with (let '(w1, n) := copy_in w p in write_loop 1 (flush w1) (skipn n p)).
    + pose proof (copy_spec w p W) as C. destruct (copy_in w p) as [w1 k]. destruct C as (W1 & Hk & N1 & O1 & S1).
      destruct (flush_spec w1 W1) as (W2 & N2 & O2 & S2).
      destruct (loop_empty (flush w1) (skipn k p) 0 W2 N2) as (w3 & p3 & -> & W3 & L3 & S3).
      exists w3, p3. repeat (split; [assumption || reflexivity|]). rewrite S3, S2, S1, <- app_assoc, firstn_skipn. reflexivity.
    + cbn [write_loop]. apply Nat.ltb_lt in G. rewrite G, E. reflexivity.
Qed.
Lemma w_write_spec w p : wwf w -> exists w', w_write w p = Some w' /\ wwf w' /\ sofar w' = sofar w ++ p.
Proof.
  intros W. unfold w_write. destruct (loop_total w p W) as (w1 & p1 & -> & W1 & L1 & S1).
  pose proof (copy_spec w1 p1 W1) as C. destruct (copy_in w1 p1) as [w2 k]. destruct C as (W2 & Hk & _ & _ & S2).
  exists w2. split; [reflexivity|]. split; [exact W2|]. rewrite S2, firstn_all2 by lia. exact S1.
Qed.
Lemma w_byte_spec w c : wwf w -> exists w', w_byte w c = Some w' /\ wwf w' /\ sofar w' = sofar w ++ [c].
Proof.
  intros W. unfold w_byte. pose proof wsz_pos as Hp.
  set (w1 := if (available w =? 0)%nat then flush w else w).
  assert (wwf w1 /\ (wN w1 < wsz)%nat /\ sofar w1 = sofar w) as (W1 & N1 & S1).
  { unfold w1. destruct (available w =? 0)%nat eqn:E.
    - destruct (flush_spec w W) as (A & B & _ & D). rewrite B. auto.
    - apply Nat.eqb_neq in E. unfold available in E. destruct W as [H1 H2]. rewrite H1 in E.
      split; [constructor; assumption|]. split; [lia|reflexivity]. }
  destruct W1 as [H1 H2]. rewrite H1. replace (wN w1 <? wsz)%nat with true by (symmetry; apply Nat.ltb_lt; exact N1).
  assert (length (firstn (wN w1) (wBuf w1)) = wN w1) as Lf by (rewrite firstn_length; lia).
  eexists. split; [reflexivity|]. split.
  - constructor; cbn [wBuf wN]; [|lia]. rewrite !app_length, skipn_length. cbn [length]. lia.
  - rewrite <- S1. unfold sofar. cbn [wBuf wN wOut]. rewrite <- app_assoc. f_equal.
    rewrite firstn_app, Lf. replace (S (wN w1) - wN w1)%nat with 1%nat by lia.
    rewrite firstn_all2 by lia. reflexivity.
Qed.
Lemma w_calls_spec cs : forall w, wwf w -> exists w', w_calls w cs = Some w' /\ wwf w' /\ sofar w' = sofar w ++ written cs.
Proof.
  unfold written. induction cs as [|[p|c] cs IH]; intros w W; cbn [w_calls flat_map].
  - exists w. rewrite app_nil_r. auto.
  - destruct (w_write_spec w p W) as (w1 & -> & W1 & S1). destruct (IH w1 W1) as (w2 & -> & W2 & S2).
    exists w2. rewrite S2, S1, <- app_assoc. auto.
  - destruct (w_byte_spec w c W) as (w1 & -> & W1 & S1). destruct (IH w1 W1) as (w2 & -> & W2 & S2).
    exists w2. rewrite S2, S1, <- app_assoc. auto.
Qed.
Theorem writer_exact cs : exists w, w_calls new_writer cs = Some w /\ wOut (flush w) = written cs.
Proof.
  assert (wwf new_writer) as W by (constructor; cbn; [apply repeat_length|lia]).
  destruct (w_calls_spec cs _ W) as (w & H & W' & S). exists w. split; [exact H|].
  destruct (flush_spec w W') as (_ & _ & -> & _). exact S.
Qed.
