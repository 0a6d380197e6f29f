(** * Apis: several mocks in one process, and the tables they share *)
From Verif Require Export Api.
From stdpp Require Import gmap list.
Open Scope Z_scope.
Open Scope list_scope.

(** api-keys.go:197-213, over any table: the versions advertised. *)
Definition versions_of (order : list bytes) : gmap Z vrange := fold_left addVersion order ∅.

(** The table entry for version [snd e] of API key [fst e]. *)
Definition row (e : Z * Z) : bytes := makeApiKey (fst e) (snd e).

(** A goroutine that calls NewKafkaMock (kafka-mock.go:35-36) and then serves
    clients, or makes no use of its mock.  One state per access to a variable. *)
Inductive npc :=
| NLock                              (* api-keys.go:173 *)
| NCheck                             (* :176 *)
| NTable                             (* :180; the literal is made, then assigned *)
| NVers                              (* :194; the map to range over (:196) is read along *)
| NFill (todo : list bytes)          (* :196-213, the keys still to come *)
| NUnlock                            (* :174 (deferred) *)
| NServe.                            (* kafka-client.go:207, api_versions.go:22-33, any number of times *)

(** api-keys.go:89, 165, 166; nil is [None]. *)
Record nsys := NSys {
  nLock : option nat;
  nTable : option (list (bytes * api));
  nVers : option (gmap Z vrange);
  nPcs : list npc
}.
(** The program starts: no mock has been made. *)
Definition ninit : nsys := NSys None None None [].

Inductive nev :=
| NNew                               (* some goroutine calls NewKafkaMock *)
| NStep (i : nat) (ch : list nat).   (* goroutine i takes a step; [ch]: order of the iteration of :196 *)

(** A step that is not possible changes nothing. *)
Definition nstep (s : nsys) (e : nev) : nsys :=
  match e with
  | NNew => NSys (nLock s) (nTable s) (nVers s) (nPcs s ++ [NLock])
  | NStep i ch =>
      let go pc := <[i := pc]> (nPcs s) in
      match nPcs s !! i with
      | Some NLock =>
          match nLock s with
          | None => NSys (Some i) (nTable s) (nVers s) (go NCheck)
          | Some _ => s
          end
      | Some NCheck =>
          NSys (nLock s) (nTable s) (nVers s) (go (match nTable s with Some _ => NUnlock | None => NTable end))
      | Some NTable => NSys (nLock s) (Some apiTable) (nVers s) (go NVers)
      | Some NVers =>
          NSys (nLock s) (nTable s) (Some ∅)
            (go (NFill (shuffle ch (map fst (default [] (nTable s))))))
      | Some (NFill []) => NSys (nLock s) (nTable s) (nVers s) (go NUnlock)
      | Some (NFill (k :: ks)) =>
          NSys (nLock s) (nTable s) (option_map (fun m => addVersion m k) (nVers s)) (go (NFill ks))
      | Some NUnlock => NSys None (nTable s) (nVers s) (go NServe)
      | Some NServe | None => s
      end
  end.
Definition nrun (s : nsys) (es : list nev) : nsys := fold_left nstep es s.

(** What a goroutine may read or write next: (the table? else the versions,
    writing?). *)
Definition ntouch (p : npc) : list (bool * bool) :=
  match p with
  | NCheck => [(true, false)]
  | NTable => [(true, true)]
  | NVers => [(true, false); (false, true)]
  | NFill _ => [(true, false); (false, true)]
  | NServe => [(true, false); (false, false)]
  | NLock | NUnlock => []
  end.
(** Two goroutines may touch the same variable next, one of them writing. *)
Definition nrace (s : nsys) : Prop := exists i j p q v w w',
  i <> j /\ nPcs s !! i = Some p /\ nPcs s !! j = Some q /\ In (v, w) (ntouch p) /\ In (v, w') (ntouch q) /\ (w || w') = true.

(** Goroutine i has its mock. *)
Definition has_mock (s : nsys) (i : nat) : Prop := nPcs s !! i = Some NServe.

(** What a request finds that goroutine i's mock serves. *)
Definition served (s : nsys) (i : nat) : option (option (list (bytes * api)) * option (gmap Z vrange)) :=
  match nPcs s !! i with Some NServe => Some (nTable s, nVers s) | _ => None end.
(** Alike but for one variable; with the same value in it. *)
Definition but_for (v : bool) (s s' : nsys) : Prop :=
  nLock s = nLock s' /\ nPcs s = nPcs s' /\ if v then nVers s = nVers s' else nTable s = nTable s'.
Definition same_in (v : bool) (s s' : nsys) : Prop := if v then nTable s = nTable s' else nVers s = nVers s'.
