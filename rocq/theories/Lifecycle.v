(** * Lifecycle: starting and stopping the server (kafka-mock.go).

    A second machine beside Server.v: here the goroutines are the callers of
    Start, RequestStop, WaitForTermination, FinishRequests and Restart, the
    accept loop [run] and the client goroutines, of which only the end matters.
    One step is one access to shared state.  Memory is sequentially consistent;
    the mutex [km.mu] and the wait groups are explicit.

    Simplifications: tracing is left out; a connection that Accept returns after
    the lane is cancelled is closed at once and forgotten; a panic of an API
    call ends that call only (its caller may recover it), a panic of [run] or of
    a client goroutine ends the process after its deferred functions (when
    Listen fails: at once). *)
From stdpp Require Import gmap list.
Open Scope Z_scope.
Open Scope list_scope.

(** The wait groups [initializing], [wg] and [active], kafka-mock.go:19,23,27. *)
Inductive wgroup := WInit | WWg | WAct.
Global Instance wgroup_dec : EqDecision wgroup.
Proof. solve_decision. Defined.

(** ** The operations of the goroutines *)
Inductive op :=
| Lock                  (* km.mu.Lock() *)
| Unlock                (* km.mu.Unlock() *)
| SwapStarted           (* kafka-mock.go:49 *)
| ClearServer           (* kafka-mock.go:53-54: listener and client table *)
| ClearStopped          (* kafka-mock.go:55 *)
| NewLane               (* kafka-mock.go:57-59: l and cancelFn *)
| AddW (w : wgroup)      (* w.Add(1) *)
| DoneW (w : wgroup)     (* w.Done() *)
| Wait (w : wgroup)     (* w.Wait(), arriving *)
| Sleep (w : wgroup)    (* w.Wait(), counted as a waiter *)
| Woken (w : wgroup)    (* w.Wait(), released *)
| GoRun                 (* kafka-mock.go:63 *)
| SwapStopped           (* kafka-mock.go:67 *)
| LoadStarted           (* kafka-mock.go:69 *)
| CloseL                (* kafka-mock.go:76-80 *)
| CancelFn              (* kafka-mock.go:84, 168: km.cancelFn() *)
| Ret                   (* the call returns *)
| Listen (g : nat)      (* kafka-mock.go:117 *)
| SetListener (g : nat) (* kafka-mock.go:122 *)
| Accept (g : nat)      (* kafka-mock.go:129 *)
| CheckLane (g : nat)   (* kafka-mock.go:137-143 *)
| Register (g : nat)    (* kafka-mock.go:149-158: number, goroutine, table entry *)
| StoreDown             (* kafka-mock.go:111: km.started.Store(false) *)
| Work (g : nat)        (* kafka-client.go:85-142: serving the client *)
| Forget (g : nat)      (* kafka-mock.go:153: delete(km.clients, cxnNumber) *)
| Die.                  (* a panic reaches the top of run or handle *)

(** kafka-mock.go:45-64.  The server's generation is the value of [NewLane]. *)
Definition start_code : list op :=
  [Lock; SwapStarted; ClearServer; ClearStopped; NewLane; AddW WWg; AddW WInit; GoRun; Unlock].
(** kafka-mock.go:66-87 *)
Definition stop_code : list op := [SwapStopped].
Definition stop_rest : list op := [Wait WInit; Lock; CloseL; Unlock; CancelFn].
(** kafka-mock.go:89-94 *)
Definition wait_code : list op := Wait WWg :: stop_code.
(** kafka-mock.go:173-178 *)
Definition restart_code : list op := stop_code ++ wait_code ++ start_code ++ [Wait WInit].

Inductive lcall := CStart | CStop | CWait | CFinish | CRestart.
Definition lcall_code (c : lcall) : list op :=
  match c with
  | CStart => start_code
  | CStop => stop_code
  | CWait => wait_code
  | CFinish => [CancelFn]       (* kafka-mock.go:167-169 *)
  | CRestart => restart_code
  end ++ [Ret].

(** kafka-mock.go:108-163; the accept loop comes to [Accept] again after every
    connection, and on a closed listener goes to [run_end]. *)
Definition run_code (g : nat) : list op := [Listen g; SetListener g; DoneW WInit; Accept g].
Definition register_code (g : nat) : list op :=
  [Lock; Register g; AddW WAct; AddW WWg; Unlock; Accept g].
Definition run_end : list op := [Wait WAct; StoreDown; DoneW WWg].
(** kafka-client.go:79-83 with the callback kafka-mock.go:150-157. *)
Definition client_end (g : nat) : list op := [Lock; Forget g; DoneW WAct; DoneW WWg; Unlock].

(** A goroutine: what it is, and the operations ahead of it. *)
Inductive kind := KCall (c : lcall) | KRun (g : nat) | KClient (g n : nat).
Record gor := Gor { gKind : kind; gCode : list op }.

(** ** Shared state *)
Record glob := Glob {
  hStarted : bool;              (* km.started *)
  hStopped : bool;              (* km.stopped *)
  hMu : option nat;             (* holder of km.mu *)
  hInit : Z; hWg : Z; hAct : Z; (* counters of the wait groups *)
  hListener : option nat;       (* km.listener: that of server g *)
  hClosed : gset nat;           (* servers whose listener has been closed *)
  hLane : option nat;           (* km.l and km.cancelFn: those of server g; None: cancelFn is nil *)
  hCancelled : gset nat;        (* servers whose lane has been cancelled *)
  hParent : bool;               (* km.parentLane is cancelled *)
  hGen : nat;                   (* number of servers so far *)
  hNum : gmap nat nat;          (* cxnNumber of server g (default 0) *)
  hTable : gset nat             (* keys of km.clients *)
}.
Record lsys := LSys { lG : glob; lT : list gor; lCrash : bool }.
Definition linit : lsys :=
  LSys (Glob false false None 0 0 0 None ∅ None ∅ false 0 ∅ ∅) [] false.

Definition count (w : wgroup) (h : glob) : Z :=
  match w with WInit => hInit h | WWg => hWg h | WAct => hAct h end.
Definition set_count (w : wgroup) (n : Z) (h : glob) : glob :=
  let 'Glob st sp mu i g a li cl la ca pa ge nu ta := h in
  match w with
  | WInit => Glob st sp mu n g a li cl la ca pa ge nu ta
  | WWg => Glob st sp mu i n a li cl la ca pa ge nu ta
  | WAct => Glob st sp mu i g n li cl la ca pa ge nu ta
  end.
Definition set_started (b : bool) (h : glob) : glob :=
  let 'Glob st sp mu i g a li cl la ca pa ge nu ta := h in Glob b sp mu i g a li cl la ca pa ge nu ta.
Definition set_stopped (b : bool) (h : glob) : glob :=
  let 'Glob st sp mu i g a li cl la ca pa ge nu ta := h in Glob st b mu i g a li cl la ca pa ge nu ta.
Definition set_mu (m : option nat) (h : glob) : glob :=
  let 'Glob st sp mu i g a li cl la ca pa ge nu ta := h in Glob st sp m i g a li cl la ca pa ge nu ta.
Definition set_listener (l : option nat) (h : glob) : glob :=
  let 'Glob st sp mu i g a li cl la ca pa ge nu ta := h in Glob st sp mu i g a l cl la ca pa ge nu ta.
Definition set_closed (c : gset nat) (h : glob) : glob :=
  let 'Glob st sp mu i g a li cl la ca pa ge nu ta := h in Glob st sp mu i g a li c la ca pa ge nu ta.
Definition set_cancelled (c : gset nat) (h : glob) : glob :=
  let 'Glob st sp mu i g a li cl la ca pa ge nu ta := h in Glob st sp mu i g a li cl la c pa ge nu ta.
Definition set_parent (h : glob) : glob :=
  let 'Glob st sp mu i g a li cl la ca pa ge nu ta := h in Glob st sp mu i g a li cl la ca true ge nu ta.
Definition set_table (t : gset nat) (h : glob) : glob :=
  let 'Glob st sp mu i g a li cl la ca pa ge nu ta := h in Glob st sp mu i g a li cl la ca pa ge nu t.
Definition new_lane (h : glob) : glob :=
  let 'Glob st sp mu i g a li cl la ca pa ge nu ta := h in Glob st sp mu i g a li cl (Some ge) ca pa (S ge) nu ta.
Definition set_num (k n : nat) (h : glob) : glob :=
  let 'Glob st sp mu i g a li cl la ca pa ge nu ta := h in Glob st sp mu i g a li cl la ca pa ge (<[k := n]> nu) ta.
Definition num (k : nat) (h : glob) : nat := default 0%nat (hNum h !! k).
(** [<-km.l.Done()] is ready. *)
Definition lane_done (h : glob) : bool :=
  hParent h || match hLane h with Some g => bool_decide (g ∈ hCancelled h) | None => false end.

(** ** Observations *)
Inductive why :=
| PStarted                    (* kafka-mock.go:50 *)
| PNil                        (* call of a nil function *)
| PNegative                   (* negative WaitGroup counter *)
| PReuse                      (* WaitGroup reused before Wait has returned *)
| POther.                     (* socket error, protocol error *)
Inductive lobs :=
| LBegin (i : nat) (c : lcall)(* c is called, on goroutine i *)
| LReturn (i : nat)           (* call i returned *)
| LPanic (i : nat) (p : why)  (* call i panicked *)
| LUp (i : nat)               (* [started] went up, by call i *)
| LFresh (i : nat)            (* listener and client table were cleared, by call i *)
| LReset (i : nat)            (* [stopped] was cleared, by call i *)
| LLane (i g : nat)           (* call i made the lane of server g *)
| LDown (g : nat)             (* [started] went down, at the end of run *)
| LStop (i : nat)             (* [stopped] went from false to true, by call i *)
| LListen (g : nat)           (* server g listens *)
| LClose (i g : nat)          (* call i closed its listener *)
| LCancel (i g : nat)         (* call i cancelled its lane *)
| LConn (g n : nat)           (* server g registered its n-th connection *)
| LGone (g n : nat)           (* the callback of that connection ran *)
| LFree (i : nat)             (* call i got through wg.Wait() *)
| LDie (p : why).             (* the process panicked *)

(** What the environment decides in a step: which of the possible outcomes an
    Accept, a Listen or the serving of a client has. *)
Inductive oracle := XGo | XConn | XEnd | XFail.

Inductive res :=
| Stay                                          (* blocked *)
| Next (h : glob) (pre : list op) (spawn : list gor) (wk : option wgroup) (os : list lobs)
| Panics (pre : list op) (p : why)              (* of an API call; deferred operations *)
| Dies (p : why).

(** The wait group operations, sync/waitgroup.go: Done below zero panics; the
    Done that brings the counter to zero releases all waiters; a released
    waiter panics if the counter is no longer zero. *)
Definition is_call (k : kind) : bool := match k with KCall _ => true | _ => false end.
Definition kgen (k : kind) : nat := match k with KRun g => g | KClient g _ => g | KCall _ => 0%nat end.
Definition kpanic (k : kind) (pre : list op) (p : why) : res := if is_call k then Panics pre p else Dies p.

Definition exec (h : glob) (i : nat) (k : kind) (o : op) (x : oracle) : res :=
  match o with
  | Lock => match hMu h with None => Next (set_mu (Some i) h) [] [] None [] | Some _ => Stay end
  | Unlock => Next (set_mu None h) [] [] None []
  | SwapStarted =>
      if hStarted h then kpanic k [Unlock] PStarted
      else Next (set_started true h) [] [] None [LUp i]
  | ClearServer => Next (set_table ∅ (set_listener None h)) [] [] None [LFresh i]
  | ClearStopped => Next (set_stopped false h) [] [] None [LReset i]
  | NewLane => Next (new_lane h) [] [] None [LLane i (hGen h)]
  | AddW w => Next (set_count w (count w h + 1) h) [] [] None []
  | DoneW w =>
      if count w h <=? 0 then kpanic k [] PNegative
      else Next (set_count w (count w h - 1) h) [] []
             (if count w h =? 1 then Some w else None) []
  | Wait w => if count w h =? 0 then Next h [] [] None (match w with WWg => [LFree i] | _ => [] end)
              else Next h [Sleep w] [] None []
  | Sleep w => Stay
  | Woken w => if count w h =? 0 then Next h [] [] None (match w with WWg => [LFree i] | _ => [] end)
               else kpanic k [] PReuse
  | GoRun =>
      match hLane h with
      | Some g => Next h [] [Gor (KRun g) (run_code g)] None []
      | None => Stay                                       (* not reached *)
      end
  | SwapStopped =>
      if hStopped h then Next h [] [] None []
      else Next (set_stopped true h) [LoadStarted] [] None [LStop i]
  | LoadStarted => if hStarted h then Next h stop_rest [] None [] else Next h [] [] None []
  | CloseL =>
      match hListener h with
      | Some g => Next (set_listener None (set_closed ({[g]} ∪ hClosed h) h)) [] [] None [LClose i g]
      | None => Next h [] [] None []
      end
  | CancelFn =>
      match hLane h with
      | Some g => Next (set_cancelled ({[g]} ∪ hCancelled h) h) [] [] None [LCancel i g]
      | None => kpanic k [] PNil
      end
  | Ret => Next h [] [] None [LReturn i]
  | Listen g => match x with XFail => Dies POther | _ => Next h [] [] None [LListen g] end
  | SetListener g => Next (set_listener (Some g) h) [] [] None []
  | Accept g =>
      match x with
      | XFail => Next h (run_end ++ [Die]) [] None []
      | XConn => if bool_decide (g ∈ hClosed h) then Next h run_end [] None []
                 else Next h [CheckLane g] [] None []
      | _ => if bool_decide (g ∈ hClosed h) then Next h run_end [] None [] else Stay
      end
  | CheckLane g => if lane_done h then Next h [Accept g] [] None [] else Next h (register_code g) [] None []
  | Register g =>
      let n := S (num g h) in
      Next (set_table ({[n]} ∪ hTable h) (set_num g n h)) [] [Gor (KClient g n) [Work g]] None [LConn g n]
  | StoreDown => Next (set_started false h) [] [] None [LDown (kgen k)]
  | Work g =>
      match x with
      | XFail => Next h (client_end g ++ [Die]) [] None []
      | XEnd => Next h (client_end g) [] None []
      | _ => Stay
      end
  | Forget g => Next (set_table (hTable h ∖ {[num g h]}) h) [] [] None
                  (match k with KClient g' n => [LGone g' n] | _ => [] end)
  | Die => Dies POther
  end.

(** ** Steps *)
Definition wake1 (w : wgroup) (t : gor) : gor :=
  match gCode t with
  | Sleep w' :: c => if decide (w' = w) then Gor (gKind t) (Woken w :: c) else t
  | _ => t
  end.
Definition wake (wk : option wgroup) (ts : list gor) : list gor :=
  match wk with Some w => map (wake1 w) ts | None => ts end.

(** [LCall c]: someone calls c, on a new goroutine.  [LRun i x]: goroutine i does
    its next operation. *)
Inductive levent := LCall (c : lcall) | LRun (i : nat) (x : oracle) | LParent.

Definition lstep (s : lsys) (e : levent) : lsys * list lobs :=
  if lCrash s then (s, []) else
  match e with
  | LCall c => (LSys (lG s) (lT s ++ [Gor (KCall c) (lcall_code c)]) false, [LBegin (length (lT s)) c])
  | LParent => (LSys (set_parent (lG s)) (lT s) false, [])
  | LRun i x =>
      match lT s !! i with
      | Some (Gor k (o :: c)) =>
          match exec (lG s) i k o x with
          | Stay => (s, [])
          | Next h pre sp wk os => (LSys h (wake wk (<[i := Gor k (pre ++ c)]> (lT s)) ++ sp) false, os)
          | Panics pre p => (LSys (lG s) (<[i := Gor k pre]> (lT s)) false, [LPanic i p])
          | Dies p => (LSys (lG s) (lT s) true, [LDie p])
          end
      | _ => (s, [])
      end
  end.
Fixpoint lrun (s : lsys) (es : list levent) : lsys * list lobs :=
  match es with
  | [] => (s, [])
  | e :: es' => let '(s1, o1) := lstep s e in let '(s2, o2) := lrun s1 es' in (s2, o1 ++ o2)
  end.
