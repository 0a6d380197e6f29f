(** * PartSpec: histories that differ only in how partitions are numbered *)
From Verif Require Export TraceSpec.
From stdpp Require Import list.
Open Scope Z_scope.
Open Scope list_scope.

(** The public API takes partition numbers as Go ints (64 bits), the protocol has
    32 bits.  Two numbers name the same partition if they differ by a multiple of
    2^32. *)
Definition same_number (p q : Z) : Prop := exists k, q = p + k * 2 ^ 32.

(** Two calls are alike if they differ only so. *)
Inductive renumbered : call -> call -> Prop :=
| rn_post t p q k v h ts : same_number p q -> renumbered (CallPost t p k v h ts) (CallPost t q k v h ts)
| rn_create ts p q : same_number p q -> renumbered (CallCreate ts p) (CallCreate ts q)
| rn_set t p q g o : same_number p q -> renumbered (CallSet t p g o) (CallSet t q g o).
Inductive renumbered_ev : event -> event -> Prop :=
| rn_same ev : renumbered_ev ev ev
| rn_call c c' : renumbered c c' -> call_ok c = true -> call_ok c' = true -> renumbered_ev (EvCall c) (EvCall c').
