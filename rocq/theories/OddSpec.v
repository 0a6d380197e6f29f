(** * OddSpec: the same request written differently.

    The protocol lets a string be null; on the wire a null string is a negative
    length, and the grammar of WireSpec writes only one of them (-1), and none
    where a plain string is expected.  Here: what it means that two byte strings
    say the same, and which byte strings are the plain ones, for which the reply
    theorems are stated.  Independent of the codec. *)
From Verif Require Export ShapeSpec.
From stdpp Require Import list.
Open Scope Z_scope.
Open Scope list_scope.

(** [reworded sh b b']: [b] and [b'] follow [sh] and differ only in how null
    strings are written: as length 0 or -1 in [b']. *)
Inductive reworded : shape -> bytes -> bytes -> Prop :=
| r_int n b : zlen b = n -> reworded (SInt n) b b
| r_null n k : l_i16 n = true -> n < 0 -> k = 0 \/ k = -1 -> reworded SStr (w_int16 n) (w_int16 k)
| r_str s : l_string s = true -> reworded SStr (w_string s) (w_string s)
| r_arr e bs bs' : zlen bs < 2 ^ 31 -> Forall2 (reworded e) bs bs' ->
    reworded (SArr e) (w_int32 (zlen bs) ++ concat bs) (w_int32 (zlen bs) ++ concat bs')
| r_rec fs bs bs' : Forall3 reworded fs bs bs' -> reworded (SRec fs) (concat bs) (concat bs').

(** The bodies written by the grammar of WireSpec, with legal fields. *)
Definition plain_body (key : Z) (body : bytes) : Prop :=
  match key with
  | 1 => exists r w mb ts, body = w_fetch_req r w mb ts /\ l_fetch r w mb ts = true
  | 2 => exists r ts, body = w_list_req r ts /\ l_list r ts = true
  | 3 => exists ts, body = w_metadata_req ts /\ l_metadata ts = true
  | 8 => exists g gen mem ret ts, body = w_commit_req g gen mem ret ts /\ l_commit g gen mem ret ts = true
  | 9 => exists g ts, body = w_off_req g ts /\ l_off g ts = true
  | 10 => exists k, body = w_find_req k /\ l_string k = true
  | 11 => exists g se re mem ty ps, body = w_join_req g se re mem ty ps /\ l_join g se re mem ty ps = true
  | 12 => exists g gen mem, body = w_heartbeat_req g gen mem /\ l_heartbeat g gen mem = true
  | 13 => exists g mem, body = w_leave_req g mem /\ l_leave g mem = true
  | 14 => exists g gen mem ps, body = w_sync_req g gen mem ps /\ l_sync g gen mem ps = true
  | 18 => body = []
  | _ => False
  end.

(** Two traces that differ only in the bytes read on connection [c]. *)
Definition same_but_read (c : nat) : list obs -> list obs -> Prop :=
  Forall2 (fun o o' => o = o' \/ exists x x', o = ORead c x /\ o' = ORead c x' /\ zlen x = zlen x').
