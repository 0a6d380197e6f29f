(** * NetErrors: how errors of the sockets are classified

    net-utils.go, and its callers in kafka-client.go and kafka-mock.go.  An error
    value is a tree: what it is, and the errors its Unwrap method returns. *)
From Verif Require Import Server.
Open Scope Z_scope.
Open Scope list_scope.

(** io.EOF, net.ErrClosed, os.ErrDeadlineExceeded, and all other error variables. *)
Inductive sentinel := SEof | SClosed | SDeadline | SOther (n : nat).
Definition sentinel_eqb (a b : sentinel) : bool :=
  match a, b with
  | SEof, SEof | SClosed, SClosed | SDeadline, SDeadline => true
  | SOther m, SOther n => Nat.eqb m n
  | _, _ => false
  end.

(** What an error value is: one of the variables above, a syscall.Errno, a
    *os.SyscallError, a *net.OpError, or a value of another type; [is] tells for
    which of the variables its method Is, if it has one, returns true.  The Is
    method of syscall.Errno knows none of the three.  Typed nil pointers are left
    out. *)
Inductive ekind :=
| KSent (s : sentinel)
| KErrno (n : Z)
| KSys
| KOp
| KOther (is : sentinel -> bool).
Inductive gerr := GErr (k : ekind) (under : list gerr).
Definition ekindof (e : gerr) : ekind := let 'GErr k _ := e in k.
Definition eunder (e : gerr) : list gerr := let 'GErr _ l := e in l.

(** The standard library's errors.Is (errors/wrap.go), for the variables: the
    error itself, its Is method, then whatever it wraps. *)
Fixpoint errorsIs (e : gerr) (t : sentinel) : bool :=
  let 'GErr k l := e in
  match k with KSent s => sentinel_eqb s t | KOther f => f t | _ => false end ||
  (fix go (l : list gerr) := match l with [] => false | x :: l' => errorsIs x t || go l' end) l.

(** ECONNRESET on Linux. *)
Definition ECONNRESET := 104.

(** net-utils.go:11-29; the field Err of a SyscallError or OpError is what it
    wraps, [None] for nil. *)
Definition ferr (e : gerr) : option gerr := match eunder e with [x] => Some x | _ => None end.
Definition wasSocketClosed (e : gerr) : bool :=
  errorsIs e SEof || errorsIs e SClosed ||
  match ekindof e with
  | KOp =>
      match ferr e with
      | Some (GErr KSys _ as e1) =>
          match ferr e1 with Some (GErr (KErrno n) _) => n =? ECONNRESET | _ => false end
      | _ => false
      end
  | _ => false
  end.

(** kafka-client.go:107-118: what becomes of connection [c] when Read returns [e]. *)
Definition readError (c : nat) (e : gerr) : event :=
  if errorsIs e SDeadline then EvTimeout c
  else if wasSocketClosed e then EvPeerClose c else EvReadErr c.

(** kafka-mock.go:129-135: true to leave the accept loop, false to panic. *)
Definition acceptError (e : gerr) : bool := wasSocketClosed e.

(** kafka-client.go:249-258; [file]: conn.File() succeeds; [peek]: the errno of
    Recvfrom, [None] for a nil error. *)
Definition isConnected (file : bool) (peek : option Z) : bool :=
  if file then match peek with Some _ => true | None => false end else false.

(** kafka-client.go:238-244: a Write of connection [c] failed. *)
Definition sendError (c : nat) (file : bool) (peek : option Z) : event :=
  EvSendFail c (negb (isConnected file peek)).

(** What Read of a TCP connection returns in the standard library (net/net.go,
    net/fd_posix.go, internal/poll/fd_unix.go): io.EOF as it is, anything else in
    an OpError, the errno of a system call in a SyscallError within it. *)
Inductive sockres := ReadEof | ReadClosed | ReadDeadline | ReadErrno (n : Z).
Definition tcpRead (r : sockres) : gerr :=
  match r with
  | ReadEof => GErr (KSent SEof) []
  | ReadClosed => GErr KOp [GErr (KSent SClosed) []]
  | ReadDeadline => GErr KOp [GErr (KSent SDeadline) []]
  | ReadErrno n => GErr KOp [GErr KSys [GErr (KErrno n) []]]
  end.
