(** * Store: model of datastore.go.

    The Go code reaches topics and partitions through pointers.  Entries are
    only ever added to the two maps, never replaced or removed
    (datastore.go:50-62 and 71-85 are the only writers), so a topic pointer is
    identified with the topic name and a partition pointer with the pair
    (topic name, partition number). *)
From Verif Require Export Codec.
From stdpp Require Export gmap.
Open Scope Z_scope.

(** datastore.go:30-41 (kafkaRecord, kafkaRecordHeader).  [None] is a nil
    slice.  Key and value are modelled as the bytes the slices hold (sharing
    with the caller's memory is the subject of Alias.v). *)
Record krecord := Rec {
  rAttr : Z;
  rTs : Z;
  rKey : option bytes;
  rVal : option bytes;
  rHdrs : list (bytes * option bytes)
}.

(** datastore.go:19-28 (kafkaPartition).  The fields [Timestamp] and [Offset]
    are never used. *)
Record kpart := Part {
  pIndex : Z;
  pError : Z;
  pRecs : list krecord;
  pOffs : gmap bytes Z;
  pMeta : option bytes
}.

(** datastore.go:14-17, 9-12 *)
Notation ktopic := (gmap Z kpart).
Notation store := (gmap bytes ktopic).

(** datastore.go:44-48 *)
Definition new_store : store := ∅.

(** datastore.go:77-81 *)
Definition new_part (number : Z) : kpart := Part number 0 [] ∅ None.

(** datastore.go:50-62 (createTopic) *)
Definition createTopic (ds : store) (name : bytes) : store :=
  match ds !! name with
  | Some _ => ds
  | None => <[name := ∅]> ds
  end.

(** datastore.go:64-69 (getTopic): is the result non-nil? *)
Definition getTopic (ds : store) (name : bytes) : bool :=
  match ds !! name with Some _ => true | None => false end.

(** datastore.go:71-85 (createPartition), on the topic held by the caller. *)
Definition createPartition (ds : store) (name : bytes) (number : Z) : store :=
  match ds !! name with
  | Some kt =>
      match kt !! number with
      | Some _ => ds
      | None => <[name := <[number := new_part number]> kt]> ds
      end
  | None => ds   (* no such pointer *)
  end.

(** datastore.go:87-92 (getPartition): the partition a pointer leads to. *)
Definition lookupPart (ds : store) (name : bytes) (number : Z) : option kpart :=
  match ds !! name with Some kt => kt !! number | None => None end.

Definition hasPart (ds : store) (name : bytes) (number : Z) : bool :=
  match lookupPart ds name number with Some _ => true | None => false end.

(** Writing through a partition pointer. *)
Definition updPart (ds : store) (name : bytes) (number : Z) (f : kpart -> kpart) : store :=
  match ds !! name with
  | Some kt =>
      match kt !! number with
      | Some kp => <[name := <[number := f kp]> kt]> ds
      | None => ds
      end
  | None => ds
  end.

(** datastore.go:102-119 (postRecord): append.  [hdrs] lists the header map in
    its iteration order. *)
Definition postRecord (ds : store) (name : bytes) (number : Z) (r : krecord) : store :=
  updPart ds name number
    (fun kp => Part (pIndex kp) (pError kp) (pRecs kp ++ [r]) (pOffs kp) (pMeta kp)).

(** Writing one group's offset: kafka-mock.go:197, offset_commit.go:69,
    datastore.go:127. *)
Definition setOffset (ds : store) (name : bytes) (number : Z) (group : bytes) (o : Z) : store :=
  updPart ds name number
    (fun kp => Part (pIndex kp) (pError kp) (pRecs kp) (<[group := o]> (pOffs kp)) (pMeta kp)).

(** Reading a Go map: the zero value if absent. *)
Definition offsetOf (kp : kpart) (group : bytes) : Z :=
  match pOffs kp !! group with Some o => o | None => 0 end.

(** datastore.go:121-130 (groupCommittedOffset): result; [0] is inserted when
    the group has no entry. *)
Definition touchGroup (ds : store) (name : bytes) (number : Z) (group : bytes) : store :=
  match lookupPart ds name number with
  | Some kp =>
      match pOffs kp !! group with
      | Some _ => ds
      | None => setOffset ds name number group 0
      end
  | None => ds
  end.

(** offset_commit.go:66-72: the critical section of a commit. *)
Definition commitOffset (ds : store) (name : bytes) (number : Z) (group : bytes) (o : Z) : store :=
  match lookupPart ds name number with
  | Some kp => if offsetOf kp group <? o then setOffset ds name number group o else ds
  | None => ds
  end.

(** ** Iteration order of Go maps

    [shuffle ch l] picks the elements of [l] in the order given by the choices
    [ch] (a choice beyond the end picks the last element left). *)
Fixpoint pick {A} (n : nat) (l : list A) : option (A * list A) :=
  match l, n with
  | [], _ => None
  | x :: l', O => Some (x, l')
  | x :: l', S n' =>
      match pick n' l' with
      | Some (y, r) => Some (y, x :: r)
      | None => Some (x, l')
      end
  end.
Fixpoint shuffle_n {A} (fuel : nat) (ch : list nat) (l : list A) : list A :=
  match fuel with
  | O => []
  | S f =>
      match pick (hd 0%nat ch) l with
      | Some (x, r) => x :: shuffle_n f (tl ch) r
      | None => []
      end
  end.
Definition shuffle {A} (ch : list nat) (l : list A) : list A := shuffle_n (length l) ch l.
