(** * C61: several mocks in one process *)
From Verif Require Import Apis ApisProofs WireSpec DispatchProofs.
From stdpp Require Import gmap list.
From Coq Require Import Sorted.
Open Scope Z_scope.
Open Scope list_scope.

(** However many goroutines call NewKafkaMock, in whatever order their steps
    come, no two of them touch the shared tables at once with one writing; nor
    does one touch them so while another's mock serves a request. *)
Theorem C61_no_race es : ~ nrace (nrun ninit es).
Proof. exact (no_nrace es). Qed.
Print Assumptions C61_no_race.

(** What counts as touching here is what the steps do: a variable changes only in a step
    of a goroutine that was about to write it; *)
Theorem C61_writes s i ch p v : nPcs s !! i = Some p -> ~ same_in v s (nstep s (NStep i ch)) -> In (v, true) (ntouch p).
Proof. exact (nstep_writes s i ch p v). Qed.
Print Assumptions C61_writes.
(** and with another value in a variable it was not about to touch, the goroutine
    does the same, and the requests its mock serves find the same. *)
Theorem C61_reads s s' i ch p v : nPcs s !! i = Some p -> (forall w, ~ In (v, w) (ntouch p)) -> but_for v s s' ->
  but_for v (nstep s (NStep i ch)) (nstep s' (NStep i ch)) /\ same_in v s' (nstep s' (NStep i ch)) /\ served s i = served s' i.
Proof. exact (nstep_reads s s' i ch p v). Qed.
Print Assumptions C61_reads.

(** About to assign the table, whatever the versions are. *)
Example C61_ex_accesses :
  let s := NSys (Some 0%nat) None None [NTable] in
  let s' := NSys (Some 0%nat) None (Some ∅) [NTable] in
  ~ same_in true s (nstep s (NStep 0 [])) /\ (forall w, ~ In (false, w) (ntouch NTable)) /\ but_for false s s' /\ ~ same_in false s s'.
Proof. cbv zeta. split; [discriminate|]. split; [intros w [E|[]]; discriminate E|]. split; [repeat split|discriminate]. Qed.

(** Who has a mock finds the whole table of handlers, and a mock, once made,
    keeps finding the same tables whatever mocks are made later. *)
Theorem C61_complete es i : has_mock (nrun ninit es) i -> nTable (nrun ninit es) = Some apiTable.
Proof. exact (fun H => proj1 (mock_tables es i H)). Qed.
Print Assumptions C61_complete.
Theorem C61_kept es es' i : has_mock (nrun ninit es) i ->
  has_mock (nrun ninit (es ++ es')) i /\ nTable (nrun ninit (es ++ es')) = nTable (nrun ninit es) /\
  nVers (nrun ninit (es ++ es')) = nVers (nrun ninit es).
Proof. exact (mock_keep es es' i). Qed.
Print Assumptions C61_kept.

(** And every mock answers ApiVersions with the same bytes: these. *)
Theorem C61_same_reply es i ch : has_mock (nrun ninit es) i ->
  option_map (fun m => encodeObject tApiVersionsResp (apiVersionsReply m ch)) (nVers (nrun ninit es)) =
  Some (Some (w_versions_resp 0
    [(1, 2, 2); (2, 1, 1); (3, 1, 1); (8, 2, 2); (9, 1, 1); (10, 0, 0); (11, 1, 1); (12, 0, 0); (13, 0, 0); (14, 0, 0); (18, 0, 0)])).
Proof. exact (mock_versions es i ch). Qed.
Print Assumptions C61_same_reply.

(** Nobody waits for ever: each caller can still get its mock. *)
Theorem C61_made es i : (i < Datatypes.length (nPcs (nrun ninit es)))%nat -> exists es', has_mock (nrun ninit (es ++ es')) i.
Proof. exact (mock_made es i). Qed.
Print Assumptions C61_made.

(** Two mocks made at the same time. *)
Example C61_ex : has_mock (nrun ninit two_mocks) 0 /\ has_mock (nrun ninit two_mocks) 1.
Proof. exact two_mocks_ok. Qed.

(** The versions advertised for a table [tab] of API keys with versions, whatever
    the order [o] in which its map is iterated: for each key one version only. *)
Theorem C61_one_version tab o k v : Permutation tab o -> (forall e, In e tab -> -32768 <= snd e <= 32767) -> In (k, v) tab ->
  exists w, In (k, w) tab /\ versions_of (map row o) !! k = Some (w, w).
Proof. exact (one_version tab o k v). Qed.
Print Assumptions C61_one_version.
(** So they cover the table if and only if it has no two versions of a key. *)
Theorem C61_covered_iff tab o : Permutation tab o -> List.NoDup tab -> (forall e, In e tab -> -32768 <= snd e <= 32767) ->
  ((forall k v, In (k, v) tab -> exists lo hi, versions_of (map row o) !! k = Some (lo, hi) /\ lo <= v <= hi) <-> List.NoDup (map fst tab)).
Proof. exact (covered_iff tab o). Qed.
Print Assumptions C61_covered_iff.
(** With a second version of Fetch the order of the map decides which of the two
    is advertised. *)
Theorem C61_two_versions_refuted : exists tab o o' k r r', Permutation tab o /\ Permutation tab o' /\
  versions_of (map row o) !! k = Some r /\ versions_of (map row o') !! k = Some r' /\ r <> r'.
Proof. exact (two_orders). Qed.
Print Assumptions C61_two_versions_refuted.
