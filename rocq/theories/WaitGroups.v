(** * WaitGroups: the same machine with the wait groups taken apart

    Lifecycle.v lets the Done that brings a counter to zero release all waiters
    in one step.  Go's sync.WaitGroup takes several: here a wait group is its
    counter ([count] of Lifecycle.v), its number of registered waiters and its
    semaphore, and one step is one atomic access to these (sync/waitgroup.go of
    the Go distribution; the package is used by kafka-mock.go:19,23,27).

    Simplifications: those of Lifecycle.v except that one.  Wait's load and
    compare-and-swap are one step: a failed compare-and-swap is a retry.  The
    counters do not overflow. *)
From Verif Require Export Lifecycle.
From stdpp Require Import gmap list.
Open Scope Z_scope.
Open Scope list_scope.

(** A goroutine inside Done, after its Done made the counter zero while n
    goroutines were waiting: about to look at the state again, about to store
    zero, or about to release the last n waiters. *)
Inductive pend := PCheck (w : wgroup) (n : nat) | PStore (w : wgroup) (n : nat) | PRel (w : wgroup) (n : nat).
Definition pgroup (p : pend) : wgroup := match p with PCheck w _ | PStore w _ | PRel w _ => w end.

Record fsys := FSys {
  fS : lsys;                    (* all that Lifecycle.v has *)
  fW : wgroup -> nat;           (* registered waiters *)
  fP : wgroup -> nat;           (* permits of the semaphore *)
  fD : gmap nat pend            (* the goroutines inside Done *)
}.
Definition finit : fsys := FSys linit (fun _ => 0%nat) (fun _ => 0%nat) ∅.
Definition upd (f : wgroup -> nat) (w : wgroup) (n : nat) : wgroup -> nat :=
  fun w' => if decide (w' = w) then n else f w'.

(** What is seen: the observations of Lifecycle.v, and the panic "WaitGroup
    misuse: Add called concurrently with Wait", of a call or of the process. *)
Inductive fobs := FL (x : lobs) | FMisuse (i : nat) | FMisuseDies.

(** The panic of goroutine i of kind k with deferred operations pre. *)
Definition fmisuse (f : fsys) (h : glob) (i : nat) (k : kind) (pre : list op) : fsys * list fobs :=
  if is_call k then (FSys (LSys h (<[i := Gor k pre]> (lT (fS f))) false) (fW f) (fP f) (fD f), [FMisuse i])
  else (FSys (LSys h (lT (fS f)) true) (fW f) (fP f) (fD f), [FMisuseDies]).
(** Goroutine i goes on with c, in shared state h. *)
Definition fgo (f : fsys) (h : glob) (i : nat) (k : kind) (c : list op) : lsys :=
  LSys h (<[i := Gor k c]> (lT (fS f))) false.
(** A step that is the same as in Lifecycle.v. *)
Definition flift (f : fsys) (e : levent) : fsys * list fobs :=
  let '(s', o) := lstep (fS f) e in (FSys s' (fW f) (fP f) (fD f), map FL o).

(** Inside Done: the state is looked at again ([Load() != state]: panic), zero
    is stored (both halves), the waiters are released one by one. *)
Definition fdone (f : fsys) (i : nat) (k : kind) (p : pend) : fsys * list fobs :=
  match p with
  | PCheck w n =>
      if (count w (lG (fS f)) =? 0) && (fW f w =? n)%nat
      then (FSys (fS f) (fW f) (fP f) (<[i := PStore w n]> (fD f)), [])
      else fmisuse f (lG (fS f)) i k [Unlock]
  | PStore w n =>
      (FSys (LSys (set_count w 0 (lG (fS f))) (lT (fS f)) false) (upd (fW f) w 0) (fP f) (<[i := PRel w n]> (fD f)), [])
  | PRel w n =>
      (FSys (fS f) (fW f) (upd (fP f) w (S (fP f w)))
         (match n with S (S m) => <[i := PRel w (S m)]> (fD f) | _ => delete i (fD f) end), [])
  end.

Definition fstep (f : fsys) (e : levent) : fsys * list fobs :=
  let s := fS f in
  if lCrash s then (f, []) else
  match e with
  | LRun i x =>
      match lT s !! i with
      | Some (Gor k code) =>
          match fD f !! i, code with
          | Some p, _ => fdone f i k p
          | None, [] => (f, [])
          | None, o :: c =>
          match o with
          | AddW w =>
              let h := set_count w (count w (lG s) + 1) (lG s) in
              if (count w (lG s) =? 0) && negb (fW f w =? 0)%nat then fmisuse f h i k [Unlock]
              else (FSys (fgo f h i k c) (fW f) (fP f) (fD f), [])
          | DoneW w =>
              if count w (lG s) <=? 0 then flift f e else
              (FSys (fgo f (set_count w (count w (lG s) - 1) (lG s)) i k c) (fW f) (fP f)
                 (if (count w (lG s) =? 1) && negb (fW f w =? 0)%nat then <[i := PCheck w (fW f w)]> (fD f) else fD f), [])
          | Wait w =>
              if count w (lG s) =? 0 then flift f e
              else (FSys (fgo f (lG s) i k (Sleep w :: c)) (upd (fW f) w (S (fW f w))) (fP f) (fD f), [])
          | Sleep w =>
              match fP f w with
              | O => (f, [])
              | S m => (FSys (fgo f (lG s) i k (Woken w :: c)) (fW f) (upd (fP f) w m) (fD f), [])
              end
          | Woken w =>
              if (count w (lG s) =? 0) && negb (fW f w =? 0)%nat then
                (if is_call k then (FSys (fgo f (lG s) i k []) (fW f) (fP f) (fD f), [FL (LPanic i PReuse)])
                 else (FSys (LSys (lG s) (lT s) true) (fW f) (fP f) (fD f), [FL (LDie PReuse)]))
              else flift f e
          | _ => flift f e
          end end
      | None => (f, [])
      end
  | _ => flift f e
  end.
Fixpoint frun (f : fsys) (es : list levent) : fsys * list fobs :=
  match es with
  | [] => (f, [])
  | e :: es' => let '(f1, o1) := fstep f e in let '(f2, o2) := frun f1 es' in (f2, o1 ++ o2)
  end.
