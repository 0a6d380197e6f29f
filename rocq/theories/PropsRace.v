(** * PropsRace: data races on the data store (C35) *)
From Verif Require Import Race RaceSpec RaceCode RaceReal Demo.
From stdpp Require Import gmap.
Open Scope Z_scope.
Open Scope list_scope.

(** Two operations race, in some interleaving on some store, exactly if one is a
    ListOffsets that names a partition and the other a post to it, or one is a
    SyncGroup and the other creates topics or partitions. *)
Theorem C35_races_exactly o1 o2 : can_race o1 o2 <-> pair_races o1 o2 \/ pair_races o2 o1.
Proof. exact (races_exactly o1 o2). Qed.
Print Assumptions C35_races_exactly.

(** However many operations run at once, every race is between two of that kind. *)
Theorem C35_races_among_many ds os is_ s tr a b e f :
  frun (finit ds os) is_ = (s, tr) -> race tr a b e f ->
  exists o1 o2, os !! evTid e = Some o1 /\ os !! evTid f = Some o2 /\ (pair_races o1 o2 \/ pair_races o2 o1).
Proof. exact (races_known ds os is_ s tr a b e f). Qed.
Print Assumptions C35_races_among_many.

Definition post_op (t : bytes) (p : Z) : dsop := DCall 7 (CallPost t p (Some [1]) (Some [2]) [] None).
Definition list_op (t : bytes) (p : Z) : dsop := DList (ListReq (-1) [(t, [ListPart p (-1)])]).

Example C35_ex_list_post : pair_races (list_op topicA 0) (post_op topicA 0).
Proof.
  left. exists topicA, 0. split.
  - exists (ListReq (-1) [(topicA, [ListPart 0 (-1)])]), [ListPart 0 (-1)], (ListPart 0 (-1)). cbn. auto.
  - exists 7, 0, (Some [1]), (Some [2]), [], None. split; reflexivity.
Qed.
Example C35_ex_sync_create : can_race (DSync [] (fun _ => [])) (DCall 0 (CallCreate [topicA] 3)).
Proof. apply C35_races_exactly. left. right. split; [exists [], (fun _ => []); reflexivity|]. right. exists 0, topicA, [], 3. reflexivity. Qed.
(** Two posts to the same partition do not race; nor does a ListOffsets with a
    post to another partition. *)
Example C35_ex_posts : ~ can_race (post_op topicA 0) (post_op topicA 0).
Proof.
  intros H. apply C35_races_exactly in H.
  assert (~ pair_races (post_op topicA 0) (post_op topicA 0)) as Hn; [|tauto].
  intros [(t & p & (rq & ps & q & E & _) & _)|[(ch & chs & E) _]]; discriminate E.
Qed.
Example C35_ex_other : ~ can_race (list_op topicA 0) (post_op topicA 1).
Proof.
  intros H. apply C35_races_exactly in H. destruct H as [H|H].
  - destruct H as [(t & p & (rq & ps & q & [= <-] & Ht & Hq & <-) & (w & p0 & k & v & h & ts & [= <- <- <- <- <- <-] & Hp))|[(ch & chs & E) _]];
      [|discriminate E].
    destruct Ht as [[= <-]|[]]. destruct Hq as [<-|[]]. discriminate Hp.
  - destruct H as [(t & p & (rq & ps & q & E & _) & _)|[(ch & chs & E) _]]; discriminate E.
Qed.
(** A racing schedule, played out: the ListOffsets up to its read of Records,
    then the post. *)
Example C35_ex_run :
  map (fun e => (evTid e, evAct e))
    (snd (frun (finit {[topicA := {[0 := new_part 0]}]} [list_op topicA 0; post_op topicA 0]) (replicate 7 0 ++ replicate 10 1)%nat)) =
  [(0, ALock MDs); (0, ARead LTopics); (0, AUnlock MDs);
   (0, ALock (MTopic topicA)); (0, ARead (LParts topicA)); (0, AUnlock (MTopic topicA));
   (0, ARead (LRecs topicA 0));
   (1, ALock MDs); (1, ARead LTopics); (1, AUnlock MDs);
   (1, ALock (MTopic topicA)); (1, ARead (LParts topicA)); (1, AUnlock (MTopic topicA));
   (1, ALock (MPart topicA 0)); (1, ARead (LRecs topicA 0)); (1, AInit (LRec topicA 0 0)); (1, AWrite (LRecs topicA 0))]%nat.
Proof. vm_compute. reflexivity. Qed.
