(** * CallSpec: the data store and the calls of the test program *)
From Verif Require Export TraceSpec.
From stdpp Require Import gmap list.
Open Scope Z_scope.
Open Scope list_scope.

(** What the data store holds for (t, p): its records, and the offset of group
    g as a client or a reader of the map would see it. *)
Definition records_of (s : sys) (t : bytes) (p : Z) : list krecord :=
  match sDs s !! t with
  | Some kt => match kt !! p with Some kp => pRecs kp | None => [] end
  | None => []
  end.
Definition offset_of (s : sys) (t : bytes) (p : Z) (g : bytes) : Z :=
  match sDs s !! t with
  | Some kt => match kt !! p with
               | Some kp => match pOffs kp !! g with Some o => o | None => 0 end
               | None => 0 end
  | None => 0
  end.
Definition has_topic (s : sys) (t : bytes) : Prop := exists kt, sDs s !! t = Some kt.
Definition has_part (s : sys) (t : bytes) (p : Z) : Prop :=
  exists kt kp, sDs s !! t = Some kt /\ kt !! p = Some kp.

(** The calls made in a run while the process is alive, each with the trace up
    to that moment. *)
Fixpoint calls (s : sys) (A : list obs) (evs : list event) : list (list obs * call) :=
  match evs with
  | [] => []
  | ev :: evs' =>
      match ev with
      | EvCall c => if negb (sCrash s) && call_ok c then [(A, c)] else []
      | _ => []
      end ++ calls (fst (step s ev)) (A ++ snd (step s ev)) evs'
  end.

(** What call number i did, in order. *)
Definition by_call (i : nat) (o : obs) : bool :=
  match o with
  | OPosted j _ _ _ | OTopic j _ | OMade j _ _ | OSet j _ _ _ _ | OReturn j => Nat.eqb i j
  | _ => false
  end.
Definition done_by (i : nat) (os : list obs) : list obs := List.filter (by_call i) os.

(** Go's conversion int32(p). *)
Definition as_int32 (p : Z) : Z := (p + 2 ^ 31) mod 2 ^ 32 - 2 ^ 31.

(** At some moment since trace [A], up to now. *)
Definition since (A os : list obs) (P : list obs -> Prop) : Prop :=
  exists A1, A `prefix_of` A1 /\ A1 `prefix_of` os /\ P A1.

(** What call number i, made at [A], has done by now ([os]).
    A post creates topic and partition and appends one record, carrying the
    given timestamp or the wall clock at some moment of the call.  The record
    is in the log when the call returns, and only once. *)
Definition effect (i : nat) (A os : list obs) (c : call) : Prop :=
  match c with
  | CallPost t p k v h ts =>
      exists tm, match ts with Some x => tm = x | None => since A os (fun A1 => tm = tr_wall A1) end /\
        done_by i os `prefix_of`
          [OTopic i t; OMade i t (as_int32 p); OPosted i t (as_int32 p) (Rec 0 tm k v h); OReturn i]
  | CallCreate ts p =>
      done_by i os `prefix_of`
        (flat_map (fun t => [OTopic i t; OMade i t (as_int32 p)]) ts ++ [OReturn i])
  | CallSet t p g o =>
      done_by i os = [] \/
      (done_by i os = [OReturn i] /\ since A os (fun A1 => tr_has t (as_int32 p) A1 = false)) \/
      (done_by i os = [OSet i t (as_int32 p) g o; OReturn i] /\ tr_has t (as_int32 p) os = true)
  end.

(** Steps a call takes. *)
Definition call_steps (c : call) : nat :=
  match c with CallPost _ _ _ _ _ _ => 4 | CallCreate ts _ => 2 * length ts + 1 | CallSet _ _ _ _ => 3 end.
Definition api_steps (i : nat) (evs : list event) : nat :=
  length (List.filter (fun e => match e with EvApi j => Nat.eqb i j | _ => false end) evs).

(** Offsets other than that of (t, p, g), and all records and partitions, are as
    before. *)
Definition only_offset (t : bytes) (p : Z) (g : bytes) (s s' : sys) : Prop :=
  (forall t' p' g', (t', p', g') <> (t, p, g) -> offset_of s' t' p' g' = offset_of s t' p' g') /\
  (forall t' p', records_of s' t' p' = records_of s t' p') /\
  (forall t' p', has_part s' t' p' <-> has_part s t' p') /\
  (forall t', has_topic s' t' <-> has_topic s t').

(** An observation that stands for a change of the data store. *)
Definition changes_store (o : obs) : Prop :=
  match o with
  | OPosted _ _ _ _ | OTopic _ _ | OMade _ _ _ | OSet _ _ _ _ _ | OCommit _ _ _ _ _ => True
  | _ => False
  end.
