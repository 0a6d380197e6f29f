(** * WalkProofs: handlers that walk over topics and partitions *)
From Verif Require Export DispatchProofs ReplySpec.
From stdpp Require Import gmap list.
From Coq Require Import ZifyBool ZifyNat.
Open Scope Z_scope.
Open Scope list_scope.

Lemma add_last_snoc {E} (e : E) acc n l : add_last e (acc ++ [(n, l)]) = acc ++ [(n, l ++ [e])].
Proof.
  induction acc as [|[n' l'] acc IH]; [reflexivity|]. cbn [app].
  destruct acc as [|a acc]; [reflexivity|].
  change (add_last e ((n', l') :: (a :: acc) ++ [(n, l)])) with ((n', l') :: add_last e ((a :: acc) ++ [(n, l)])).
  now rewrite IH.
Qed.

(** Results with the request entries they belong to. *)
Definition zipped {P E} (ts : list (bytes * list P)) (acc : list (bytes * list E)) : list (bytes * P * E) :=
  flat_map (fun te : (bytes * list P) * (bytes * list E) =>
    map (fun pe => (fst (fst te), fst pe, snd pe)) (combine (snd (fst te)) (snd (snd te)))) (combine ts acc).

Lemma combine_app {A B} (a1 a2 : list A) (b1 b2 : list B) : length a1 = length b1 ->
  combine (a1 ++ a2) (b1 ++ b2) = combine a1 b1 ++ combine a2 b2.
Proof.
  revert b1. induction a1 as [|x a1 IH]; intros [|y b1] H; try discriminate; [reflexivity|].
  cbn. f_equal. apply IH. now injection H.
Qed.
Lemma zipped_snoc {P E} ts1 n (ps : list P) acc1 (l : list E) : length ts1 = length acc1 ->
  zipped (ts1 ++ [(n, ps)]) (acc1 ++ [(n, l)]) = zipped ts1 acc1 ++ map (fun pe => (n, fst pe, snd pe)) (combine ps l).
Proof.
  intros H. unfold zipped. rewrite combine_app, flat_map_app by assumption. f_equal. cbn. apply app_nil_r.
Qed.

(** Where a walk over the plan of [ts] stands: [ops] still to do, [cur] the
    current topic, [acc] built, [z] the results so far. *)
Inductive walk {P E} (right : bytes -> P -> E -> Prop) (ts : list (bytes * list P)) :
  list (wop P) -> option bytes -> list (bytes * list E) -> list (bytes * P * E) -> Prop :=
| walk_start : walk right ts (plan ts) None [] []
| walk_in ts1 n ps1 ps2 ts2 acc1 l z :
    ts = ts1 ++ (n, ps1 ++ ps2) :: ts2 ->
    entrywise right ts1 acc1 -> Forall2 (right n) ps1 l ->
    z = zipped ts1 acc1 ++ map (fun pe => (n, fst pe, snd pe)) (combine ps1 l) ->
    walk right ts (map WPart ps2 ++ plan ts2) (Some n) (acc1 ++ [(n, l)]) z.

Lemma plan_app {P} (a b : list (topic_req P)) : plan (a ++ b) = plan a ++ plan b.
Proof. apply flat_map_app. Qed.
Lemma plan_nil_inv {P} (ts : list (topic_req P)) : plan ts = [] -> ts = [].
Proof. now destruct ts as [|[n ps] ts]. Qed.
Lemma plan_length {P} (ts : list (topic_req P)) : length (plan ts) = entries ts.
Proof.
  unfold entries. induction ts as [|[n ps] ts IH]; [reflexivity|].
  change (plan ((n, ps) :: ts)) with ((WTopic n :: map WPart ps) ++ plan ts).
  rewrite app_length, IH. cbn. rewrite map_length, app_length. lia.
Qed.

Section walk.
Context {P E : Type} (right : bytes -> P -> E -> Prop) (ts : list (bytes * list P)).

Lemma walk_topic n ops cur acc z : walk right ts (WTopic n :: ops) cur acc z ->
  walk right ts ops (Some n) (acc ++ [(n, [])]) z.
Proof.
  intros H. remember (WTopic n :: ops) as ops0 eqn:Eo. destruct H as [|ts1 m ps1 ps2 ts2 acc1 l z Et H1 H2 Ez].
  - destruct ts as [|[m ps] ts'] eqn:Ets; [discriminate|]. injection Eo as -> <-.
    apply (walk_in right _ [] n [] ps ts' [] []); constructor.
  - destruct ps2 as [|p ps2]; [|discriminate]. cbn in Eo.
    destruct ts2 as [|[m' ps'] ts2]; [discriminate|]. injection Eo as -> <-.
    apply (walk_in right _ (ts1 ++ [(m, ps1)]) n [] ps' ts2 (acc1 ++ [(m, l)]) []).
    + rewrite Et, app_nil_r. now rewrite <- app_assoc.
    + apply Forall2_app; [assumption|]. constructor; [|constructor]. auto.
    + constructor.
    + rewrite zipped_snoc by (eapply Forall2_length; exact H1). cbn. now rewrite app_nil_r.
Qed.
Lemma walk_part p ops cur acc z : walk right ts (WPart p :: ops) cur acc z ->
  exists n, cur = Some n /\
    forall e, right n p e -> walk right ts ops cur (add_last e acc) (z ++ [(n, p, e)]).
Proof.
  intros H. remember (WPart p :: ops) as ops0 eqn:Eo. destruct H as [|ts1 m ps1 ps2 ts2 acc1 l z Et H1 H2 Ez].
  - destruct ts as [|[m ps] ts']; discriminate.
  - destruct ps2 as [|p' ps2].
    + destruct ts2 as [|[m' ps'] ts2]; discriminate.
    + injection Eo as -> <-. exists m. split; [reflexivity|]. intros e He. rewrite add_last_snoc.
      apply (walk_in right _ ts1 m (ps1 ++ [p]) ps2 ts2 acc1 (l ++ [e])).
      * rewrite Et. now rewrite <- app_assoc.
      * assumption.
      * apply Forall2_app; [assumption|]. now constructor.
      * rewrite combine_app by (eapply Forall2_length; exact H2). rewrite map_app, Ez. cbn.
        now rewrite <- app_assoc.
Qed.
Lemma walk_end cur acc z : walk right ts [] cur acc z -> entrywise right ts acc /\ z = zipped ts acc.
Proof.
  intros H. remember [] as ops0 eqn:Eo. destruct H as [|ts1 m ps1 ps2 ts2 acc1 l z Et H1 H2 Ez].
  - apply plan_nil_inv in Eo. rewrite Eo. split; [constructor|reflexivity].
  - destruct ps2 as [|p' ps2]; [|discriminate]. cbn in Eo. apply plan_nil_inv in Eo as ->.
    rewrite Et, app_nil_r. split.
    + apply Forall2_app; [assumption|]. constructor; [|constructor]. auto.
    + rewrite Ez. symmetry. apply zipped_snoc. eapply Forall2_length; exact H1.
Qed.
End walk.

Lemma Forall2_mono {A B} (R1 R2 : A -> B -> Prop) l1 l2 :
  (forall x y, R1 x y -> R2 x y) -> Forall2 R1 l1 l2 -> Forall2 R2 l1 l2.
Proof. intros H. induction 1; constructor; auto. Qed.
Lemma entrywise_mono {P E} (r1 r2 : bytes -> P -> E -> Prop) ts acc :
  (forall n p e, r1 n p e -> r2 n p e) -> entrywise r1 ts acc -> entrywise r2 ts acc.
Proof.
  intros H. apply Forall2_mono. intros [n ps] [n' es] [H1 H2]. split; [assumption|].
  eapply Forall2_mono; [|exact H2]. cbn. auto.
Qed.
Lemma walk_mono {P E} (r1 r2 : bytes -> P -> E -> Prop) ts ops cur acc z :
  (forall n p e, r1 n p e -> r2 n p e) -> walk r1 ts ops cur acc z -> walk r2 ts ops cur acc z.
Proof.
  intros H [|ts1 n ps1 ps2 ts2 acc1 l z0 Et H1 H2 Ez]; [constructor|].
  econstructor; eauto using entrywise_mono. eapply Forall2_mono; [|exact H2]. cbn. auto.
Qed.

(** The request as given and as read. *)
Lemma entries_mk {P Q} (f : P -> Q) ts : entries (mk_topics f ts) = entries ts.
Proof.
  unfold entries, mk_topics. rewrite map_length. f_equal.
  induction ts as [|[n ps] ts IH]; [reflexivity|]. cbn. rewrite !app_length, map_length. lia.
Qed.
Lemma entrywise_mk {P Q E} (f : P -> Q) (right : bytes -> Q -> E -> Prop) ts acc :
  entrywise right (mk_topics f ts) acc -> entrywise (fun n p e => right n (f p) e) ts acc.
Proof.
  unfold entrywise, mk_topics. intros H. apply Forall2_fmap_l in H. revert H. apply Forall2_mono.
  intros [n ps] [n' es] [H1 H2]. split; [assumption|]. cbn [fst snd] in *.
  change (map f ps) with (fmap f ps) in H2. exact (proj1 (Forall2_fmap_l _ _ _ _) H2).
Qed.
Lemma combine_map_l {A A' B} (f : A -> A') (a : list A) (b : list B) :
  combine (map f a) b = map (fun x => (f (fst x), snd x)) (combine a b).
Proof. revert b. induction a as [|x a IH]; intros [|y b]; cbn; try reflexivity. now rewrite IH. Qed.
Lemma zipped_mk {P Q E} (f : P -> Q) ts (acc : list (bytes * list E)) :
  zipped (mk_topics f ts) acc = map (fun x => (fst (fst x), f (snd (fst x)), snd x)) (zipped ts acc).
Proof.
  unfold zipped, mk_topics. revert acc. induction ts as [|[n ps] ts IH]; intros [|[m es] acc]; cbn; try reflexivity.
  rewrite map_app, <- IH. f_equal. rewrite combine_map_l, !map_map. reflexivity.
Qed.

(** *** [sometime] *)
Lemma sometime_mono A B o (P : list obs -> Prop) : sometime A B P -> sometime A (B ++ o) P.
Proof. intros (B1 & H & HP). exists B1. split; [now apply prefix_app_r'|assumption]. Qed.
Lemma sometime_now A B (P : list obs -> Prop) : P (A ++ B) -> sometime A B P.
Proof. intros H. exists B. auto. Qed.

(** *** The store and the trace *)
Lemma inv_hasPart port vers os s t p : inv port vers os s -> hasPart (sDs s) t p = tr_has t p os.
Proof.
  intros H. pose proof (proj2 (i_store _ _ _ _ H) t p) as Hp. unfold hasPart.
  destruct (lookupPart (sDs s) t p); [now rewrite (po_has _ _ _ _ Hp)|now rewrite (np_has _ _ _ Hp)].
Qed.
Lemma inv_getTopic port vers os s t : inv port vers os s -> getTopic (sDs s) t = tr_topic t os.
Proof. intros H. apply (proj1 (i_store _ _ _ _ H)). Qed.
Lemma inv_no_topic port vers os s t p : inv port vers os s -> getTopic (sDs s) t = false -> tr_has t p os = false.
Proof.
  intros H Ht. rewrite <- (inv_hasPart _ _ _ _ _ _ H). unfold hasPart, lookupPart, getTopic in *.
  now destruct (sDs s !! t).
Qed.
Lemma tr_has_mono t p a b : tr_has t p a = true -> tr_has t p (a ++ b) = true.
Proof. intros H. now rewrite tr_has_app, H. Qed.

(** What a handler knows of the topic [cur] it is in, with [kt] the pointer. *)
Definition kt_spec (A B : list obs) (kt cur : option bytes) : Prop :=
  match kt with
  | Some n => cur = Some n
  | None => forall n, cur = Some n -> sometime A B (fun os => forall p, tr_has n p os = false)
  end.
Lemma kt_spec_mono A B o kt cur : kt_spec A B kt cur -> kt_spec A (B ++ o) kt cur.
Proof. destruct kt; cbn; [auto|]. eauto using sometime_mono. Qed.
Lemma kt_spec_get port vers A B s n : inv port vers (A ++ B) s ->
  kt_spec A B (if getTopic (sDs s) n then Some n else None) (Some n).
Proof.
  intros H. destruct (getTopic (sDs s) n) eqn:E; cbn; [reflexivity|].
  intros n' [= <-]. apply sometime_now. intros p. eapply inv_no_topic; eauto.
Qed.

(** What is left of the request, seen from inside a plan. *)
Fixpoint rest_flat {P} (cur : bytes) (ops : list (wop P)) : list (bytes * P) :=
  match ops with
  | [] => []
  | WTopic n :: ops' => rest_flat n ops'
  | WPart p :: ops' => (cur, p) :: rest_flat cur ops'
  end.
Lemma rest_flat_parts {P} cur (ps : list P) ops : rest_flat cur (map WPart ps ++ ops) = map (pair cur) ps ++ rest_flat cur ops.
Proof. induction ps as [|p ps IH]; cbn; [reflexivity|]. now rewrite IH. Qed.
Lemma rest_flat_plan {P} (ts : list (topic_req P)) cur : rest_flat cur (plan ts) = flat ts.
Proof.
  unfold flat. revert cur. induction ts as [|[n ps] ts IH]; intros cur; [reflexivity|].
  rewrite plan_cons. cbn [rest_flat fst snd map concat]. now rewrite rest_flat_parts, IH.
Qed.

Lemma flat_mk {P Q} (f : P -> Q) ts : flat (mk_topics f ts) = map (fun q => (fst q, f (snd q))) (flat ts).
Proof.
  unfold flat, mk_topics. induction ts as [|[n ps] ts IH]; [reflexivity|].
  cbn [map concat fst snd]. rewrite IH, map_app, !map_map. reflexivity.
Qed.
