(** * AliasProofs: reading shared slices *)
From Verif Require Import ConsumerProofs Alias WireSpec WireProofs CrcSpec ReplySpec FetchEnc CodecMore CrcProofs AliasSpec.
From Coq Require Import List.
Open Scope Z_scope.
Open Scope list_scope.

(** *** Memory *)
Lemma set_nth_length {A} (l : list A) n x : length (set_nth l n x) = length l.
Proof. revert n. induction l as [|y l IH]; intros [|n]; cbn; auto. Qed.
Lemma nth_set_nth {A} (l : list A) n m x d : nth m (set_nth l n x) d = if ((n =? m) && (n <? length l))%nat then x else nth m l d.
Proof.
  revert n m. induction l as [|y l IH]; intros [|n] [|m]; cbn; try reflexivity.
  - destruct (n =? m)%nat; reflexivity.
  - rewrite IH. destruct (Nat.eqb_spec n m); cbn; [|reflexivity].
    replace (S n <? S (length l))%nat with (n <? length l)%nat; [reflexivity|]. reflexivity.
Qed.
Lemma set_nth_forall {A} (P : A -> Prop) l n x : Forall P l -> P x -> Forall P (set_nth l n x).
Proof. intros H Hx. revert n. induction H as [|y l Hy Hl IH]; intros [|n]; cbn; constructor; auto. Qed.
Lemma all_bytes_forall b : all_bytes b = true <-> Forall (fun x => is_byte x = true) b.
Proof. unfold all_bytes. rewrite forallb_forall, Forall_forall. reflexivity. Qed.
Lemma nth_heap h a : heap_bytes h -> all_bytes (nth a h []) = true.
Proof.
  intros H. destruct (Nat.lt_ge_cases a (length h)) as [Hl|Hl]; [|rewrite nth_overflow by exact Hl; reflexivity].
  unfold heap_bytes in H. rewrite Forall_forall in H. apply H, nth_In, Hl.
Qed.
Lemma write_bytes h a i b : heap_bytes h -> heap_bytes (write_byte h a i b).
Proof.
  intros H. apply set_nth_forall; [exact H|]. apply all_bytes_forall, set_nth_forall; [apply all_bytes_forall, nth_heap, H|].
  unfold is_byte, uwrap. pose proof (Z.mod_pos_bound b (2 ^ 8)). change (2 ^ 8) with 256 in *. lia.
Qed.
Lemma view_bytes h o : heap_bytes h -> obytes (view h o) = true.
Proof.
  intros H. destruct o as [s|]; [|reflexivity]. cbn. apply all_bytes_forall. unfold read_slice.
  pose proof (nth_heap h (sArr s) H) as Hb. apply all_bytes_forall in Hb.
  rewrite Forall_forall in *. intros x Hx. apply Hb.
  rewrite <- (firstn_skipn (sOff s)). apply in_or_app. right.
  rewrite <- (firstn_skipn (sLen s)). apply in_or_app. left. exact Hx.
Qed.

Lemma nth_error_skipn' {A} (l : list A) n m : nth_error (skipn n l) m = nth_error l (n + m).
Proof. revert l. induction n as [|n IH]; intros l; [reflexivity|]. destruct l; cbn; [destruct m; reflexivity|apply IH]. Qed.

(** *** The invariant *)
Notation pick := (arec * nat * nat)%type.
Definition pRec (p : pick) : arec := fst (fst p).
Definition strip (m : moment) : pick := (moRec m, moCrcKey m, moCrcVal m).

Section Inv.
  Context (H : nat -> heap) (o : Z).

  Definition crc_of (p : pick) : Z :=
    let '(r, t1, t2) := p in crc32c_spec (w_msg_tail (aTs r) (view (H t1) (aKey r)) (view (H t2) (aVal r))).
  Definition amsg_of (off : Z) (p : pick) : amsg :=
    let r := pRec p in AMsg off (swrap 32 (arec_size r)) (swrap 32 (crc_of p)) (aTs r) (aKey r) (aVal r).
  Fixpoint amsgs (off : Z) (ps : list pick) : list amsg :=
    match ps with [] => [] | p :: ps' => amsg_of off p :: amsgs (off + 1) ps' end.
  Lemma amsgs_app off a b : amsgs off (a ++ b) = amsgs off a ++ amsgs (off + zlen a) b.
  Proof.
    revert off. induction a as [|p a IH]; intros off; cbn.
    - rewrite Z.add_0_r. reflexivity.
    - rewrite IH. replace (off + 1 + zlen a) with (off + zlen (p :: a)) by (unfold zlen; cbn [length]; lia). reflexivity.
  Qed.
  Lemma w_shareds_app off a b : w_shareds H off (a ++ b) = w_shareds H off a ++ w_shareds H (off + zlen a) b.
  Proof.
    revert off. induction a as [|p a IH]; intros off; cbn [app w_shareds].
    - change (zlen (@nil moment)) with 0. rewrite Z.add_0_r. reflexivity.
    - rewrite IH, <- app_assoc. replace (off + 1 + zlen a) with (off + zlen (p :: a)) by (unfold zlen; cbn [length]; lia). reflexivity.
  Qed.

  Definition head_of (off : Z) (p : pick) (t3 : nat) : bytes :=
    let r := pRec p in
    w_int64 off ++ w_int32 (arec_size r) ++ w_int32 (crc_of p) ++ w_int8 1 ++ w_int8 0 ++ w_int64 (aTs r) ++
    w_bytes (view (H t3) (aKey r)).
  Lemma enc_head_of off p t3 : enc_head (amsg_of off p) (view (H t3) (aKey (pRec p))) = head_of off p t3.
  Proof.
    unfold enc_head, head_of, amsg_of. cbn [amOffset amSize amCrc amTs amKey amVal].
    rewrite !enc_i64_w, !enc_i32_w, !enc_i8_w, !w_int32_swrap, enc_nbytes_w. reflexivity.
  Qed.
  Lemma w_shared_split off m :
    w_shared H off m = head_of off (strip m) (moKey m) ++ w_bytes (view (H (moVal m)) (aVal (moRec m))).
  Proof.
    unfold w_shared, head_of, strip, w_message, w_msg_tail, pRec, crc_of. cbn [fst]. rewrite <- !app_assoc. reflexivity.
  Qed.

  Definition ticked (n : nat) (p : pick) : Prop := let '(_, t1, t2) := p in (t1 <= t2 /\ t2 <= n)%nat.

  Definition pc_ok (n : nat) (s : asys) (ps : list pick) (total : bytes) : Prop :=
    let here r := 0 <= o /\ nth_error (aLog s) (Z.to_nat (o + zlen ps)) = Some r in
    match fPc (aFetch s) with
    | PScan | PPanic => True
    | PCrcKey r => here r
    | PCrcVal r k => here r /\ exists t1, (t1 <= n)%nat /\ k = view (H t1) (aKey r)
    | PEncKey todo out => exists ds ps2, ps = map strip ds ++ ps2 /\ Forall (in_order n) ds /\
        todo = amsgs (o + zlen ds) ps2 /\ out = total ++ w_shareds H o ds
    | PEncVal m todo out => exists ds p t3 ps2, ps = map strip ds ++ p :: ps2 /\ Forall (in_order n) ds /\
        (snd p <= t3 /\ t3 <= n)%nat /\
        m = amsg_of (o + zlen ds) p /\ todo = amsgs (o + zlen ds + 1) ps2 /\
        out = total ++ w_shareds H o ds ++ head_of (o + zlen ds) p t3
    | PDone out => exists ds, ps = map strip ds /\ Forall (in_order n) ds /\ out = total ++ w_shareds H o ds
    end.

  Definition ainv (n : nat) (s : asys) : Prop :=
    exists ps, let f := aFetch s in
      fMsgs f = amsgs o ps /\ fOffset f = o + zlen ps /\ fMsOffset f = o + zlen ps /\
      enc_i32 (fTotal f) = w_int32 (shared_size (map pRec ps)) /\
      map pRec ps = firstn (length ps) (skipn (Z.to_nat o) (aLog s)) /\ (ps = [] \/ 0 <= o) /\
      Forall (ticked n) ps /\ pc_ok n s ps (w_int32 (shared_size (map pRec ps))).

  Lemma ticked_mono n m p : (n <= m)%nat -> ticked n p -> ticked m p.
  Proof. destruct p as [[r t1] t2]. cbn. lia. Qed.
  Lemma in_order_mono n m d : (n <= m)%nat -> in_order n d -> in_order m d.
  Proof. unfold in_order. lia. Qed.
  Lemma ticked_all n m ps : (n <= m)%nat -> Forall (ticked n) ps -> Forall (ticked m) ps.
  Proof. intros Hl. apply Forall_impl. intros p. apply ticked_mono. exact Hl. Qed.
  Lemma in_order_all n m ds : (n <= m)%nat -> Forall (in_order n) ds -> Forall (in_order m) ds.
  Proof. intros Hl. apply Forall_impl. intros p. apply in_order_mono. exact Hl. Qed.

  Lemma shared_size_app a b : shared_size (a ++ b) = shared_size a + shared_size b.
  Proof. induction a as [|r a IH]; cbn; [reflexivity|]. fold (shared_size (a ++ b)) (shared_size a). rewrite IH. lia. Qed.
  Lemma w_int32_add a b c : enc_i32 a = w_int32 b -> enc_i32 (a + swrap 32 c) = w_int32 (b + c).
  Proof.
    rewrite <- !enc_i32_w. unfold enc_i32. intros E.
    assert (uwrap 32 a = uwrap 32 b) as E1.
    { apply (f_equal be_get) in E. rewrite !be_get_put in E. change (256 ^ Z.of_nat 4) with (2 ^ 32) in E.
      unfold uwrap in *. rewrite !Z.mod_mod in E by lia. exact E. }
    f_equal. unfold uwrap in *. rewrite (Z.add_mod a), (Z.add_mod b) by lia. rewrite E1.
    change (swrap 32 c mod 2 ^ 32) with (uwrap 32 (swrap 32 c)). rewrite uwrap_swrap by lia. reflexivity.
  Qed.

  (** Events that leave the Fetch alone. *)
  Lemma ainv_other n s h l : ainv n s -> (exists x, l = aLog s ++ x) -> ainv (S n) (ASys h l (aFetch s)).
  Proof.
    intros (ps & E1 & E2 & E3 & E4 & E5 & E6 & E7 & E8) [x ->]. exists ps. cbn [aFetch aLog].
    split; [exact E1|]. split; [exact E2|]. split; [exact E3|]. split; [exact E4|].
    assert (length ps <= length (skipn (Z.to_nat o) (aLog s)))%nat as Hl.
    { apply (f_equal (@length _)) in E5. rewrite map_length, firstn_length in E5. lia. }
    split.
    { rewrite skipn_app, firstn_app. rewrite <- E5.
      replace (length ps - _)%nat with 0%nat by lia. rewrite app_nil_r. reflexivity. }
    split; [exact E6|]. split; [eapply ticked_all; [|exact E7]; lia|].
    assert (Hn : forall r, 0 <= o /\ nth_error (aLog s) (Z.to_nat (o + zlen ps)) = Some r ->
      0 <= o /\ nth_error (aLog s ++ x) (Z.to_nat (o + zlen ps)) = Some r).
    { intros r [Ho Hr]. split; [exact Ho|]. rewrite nth_error_app1; [exact Hr|]. apply nth_error_Some. congruence. }
    unfold pc_ok in *. cbn [aFetch aLog]. destruct (fPc (aFetch s)) as [|r|r k|todo out|m todo out|out|]; try exact I.
    - apply Hn, E8.
    - destruct E8 as [E8 (t1 & Ht & Hk)]. split; [apply Hn, E8|]. exists t1. split; [lia|exact Hk].
    - destruct E8 as (ds & ps2 & A & B & C). exists ds, ps2. split; [exact A|]. split; [eapply in_order_all; [|exact B]; lia|exact C].
    - destruct E8 as (ds & p & t3 & ps2 & A & B & C & D). exists ds, p, t3, ps2. split; [exact A|].
      split; [eapply in_order_all; [|exact B]; lia|]. split; [lia|exact D].
    - destruct E8 as (ds & A & B & C). exists ds. split; [exact A|]. split; [eapply in_order_all; [|exact B]; lia|exact C].
  Qed.

  Lemma ainv_goto n s pc : ainv n s ->
    (forall ps, Forall (ticked n) ps -> fMsgs (aFetch s) = amsgs o ps -> fOffset (aFetch s) = o + zlen ps ->
       enc_i32 (fTotal (aFetch s)) = w_int32 (shared_size (map pRec ps)) ->
       pc_ok n s ps (w_int32 (shared_size (map pRec ps))) ->
       pc_ok (S n) (ASys (aHeap s) (aLog s) (goto (aFetch s) pc)) ps (w_int32 (shared_size (map pRec ps)))) ->
    ainv (S n) (ASys (aHeap s) (aLog s) (goto (aFetch s) pc)).
  Proof.
    intros (ps & E1 & E2 & E3 & E4 & E5 & E6 & E7 & E8) Hpc. exists ps. cbn [aFetch aLog goto fMsgs fOffset fMsOffset fTotal].
    repeat (split; [assumption|]). split; [eapply ticked_all; [|exact E7]; lia|]. apply Hpc; assumption.
  Qed.

  Lemma ainv_fetch x n s : (forall m, heap_bytes (H m)) -> aHeap s = H n -> ainv n s ->
    ainv (S n) (ASys (aHeap s) (aLog s) (fetch_step x (aHeap s) (aLog s) (aFetch s))).
  Proof.
    intros Hb Hh Hi. unfold fetch_step. destruct (fPc (aFetch s)) as [|r|r k|[|m todo] out|m todo out|out|] eqn:Ep.
    - destruct (Z.ltb_spec (fOffset (aFetch s)) (zlen (aLog s))) as [Hlt|Hge].
      + destruct (Z.ltb_spec (fOffset (aFetch s)) 0) as [Hn|Hn]; [apply ainv_goto; [exact Hi|]; intros; exact I|].
        destruct (nth_error (aLog s) (Z.to_nat (fOffset (aFetch s)))) as [r|] eqn:Er; [|apply ainv_goto; [exact Hi|]; intros; exact I].
        destruct Hi as (ps & E1 & E2 & E3 & E4 & E5 & E6 & E7 & E8). exists ps. cbn [aFetch aLog goto fMsgs fOffset fMsOffset fTotal].
        repeat (split; [assumption|]). split; [eapply ticked_all; [|exact E7]; lia|].
        unfold pc_ok. cbn [aFetch aLog goto fPc]. rewrite E2 in Er, Hn. split; [|exact Er]. destruct E6 as [->|E6]; [cbn in Hn; unfold zlen in Hn; cbn in Hn; lia|exact E6].
      + destruct (fHasOne (aFetch s) || x).
        * apply ainv_goto; [exact Hi|]. intros ps Ht Hm Ho Hw _. unfold pc_ok. cbn [aFetch aLog goto fPc]. exists [], ps. split; [reflexivity|]. split; [constructor|].
          split; [rewrite Hm; f_equal; unfold zlen; cbn; lia|]. cbn [w_shareds]. rewrite app_nil_r. exact Hw.
        * apply ainv_other; [exact Hi|exists []; rewrite app_nil_r; reflexivity].
    - apply ainv_goto; [exact Hi|]. intros ps Ht Hm Ho Hw Hp. unfold pc_ok in Hp. rewrite Ep in Hp. unfold pc_ok. cbn [aFetch aLog goto fPc]. split; [exact Hp|].
      exists n. split; [lia|]. rewrite Hh. reflexivity.
    - destruct Hi as (ps & E1 & E2 & E3 & E4 & E5 & E6 & E7 & E8). unfold pc_ok in E8. rewrite Ep in E8.
      destruct E8 as [[Ho Hr] (t1 & Ht1 & ->)]. unfold append_shared.
      destruct (_ <? _).
      + exists ps. cbn [aFetch aLog fMsgs fOffset fMsOffset fTotal]. repeat (split; [assumption|]).
        split; [eapply ticked_all; [|exact E7]; lia|exact I].
      + exists (ps ++ [(r, t1, n)]). cbn [aFetch aLog fMsgs fOffset fMsOffset fTotal].
        assert (zlen (ps ++ [(r, t1, n)]) = zlen ps + 1) as Hz by (rewrite zlen_app; reflexivity).
        rewrite Hz. split.
        { rewrite amsgs_app, E1. f_equal. cbn [amsgs]. unfold amsg_of, crc_of, pRec, arec_size. cbn [fst]. rewrite E3, Hh.
          do 2 f_equal. f_equal.
          exact (message_crc_eq (o + zlen ps) (swrap 32 (34 + slen (aKey r) + slen (aVal r)))
            (Rec 0 (aTs r) (view (H t1) (aKey r)) (view (H n) (aVal r)) [])
            (conj (view_bytes _ _ (Hb t1)) (view_bytes _ _ (Hb n)))). }
        split; [lia|]. split; [lia|]. rewrite map_app, shared_size_app. cbn [map shared_size fold_right]. unfold pRec at 2. cbn [fst].
        rewrite Z.add_0_r. split; [apply (w_int32_add _ _ (arec_size r)); exact E4|]. split.
        { rewrite app_length. cbn [length].
          assert (nth_error (skipn (Z.to_nat o) (aLog s)) (length ps) = Some r) as Hr'.
          { rewrite nth_error_skipn'. rewrite <- Hr. f_equal. unfold zlen. lia. }
          rewrite E5. clear - Hr'. revert Hr'. generalize (skipn (Z.to_nat o) (aLog s)). generalize (length ps). intros k.
          induction k as [|k IH]; intros [|y l] Hr; try discriminate Hr; cbn in *.
          - injection Hr as ->. reflexivity.
          - rewrite <- (IH l Hr). reflexivity. }
        split; [right; exact Ho|]. split; [|exact I]. apply Forall_app. split; [eapply ticked_all; [|exact E7]; lia|].
        constructor; [cbn; lia|constructor].
    - apply ainv_goto; [exact Hi|]. intros ps Ht Hm Ho Hw Hp. unfold pc_ok in Hp. rewrite Ep in Hp. unfold pc_ok. cbn [aFetch aLog goto fPc].
      destruct Hp as (ds & ps2 & A & B & C & D). exists ds. destruct ps2; [|discriminate C]. rewrite app_nil_r in A.
      split; [exact A|]. split; [eapply in_order_all; [|exact B]; lia|exact D].
    - apply ainv_goto; [exact Hi|]. intros ps Ht Hm Ho Hw Hp. unfold pc_ok in Hp. rewrite Ep in Hp. unfold pc_ok. cbn [aFetch aLog goto fPc].
      destruct Hp as (ds & ps2 & A & B & C & D). destruct ps2 as [|p ps2]; [discriminate C|]. injection C as -> ->.
      exists ds, p, n, ps2. split; [exact A|]. split; [eapply in_order_all; [|exact B]; lia|].
      split.
      { rewrite A in Ht. apply Forall_app in Ht as [_ Ht]. inversion Ht as [|? ? Hp _]; subst. destruct p as [[r t1] t2]. cbn in *. lia. }
      split; [reflexivity|]. split; [reflexivity|]. rewrite D, <- app_assoc, Hh.
      change (amKey (amsg_of (o + zlen ds) p)) with (aKey (pRec p)). rewrite enc_head_of. reflexivity.
    - apply ainv_goto; [exact Hi|]. intros ps Ht Hm Ho Hw Hp. unfold pc_ok in Hp. rewrite Ep in Hp. unfold pc_ok. cbn [aFetch aLog goto fPc].
      destruct Hp as (ds & p & t3 & ps2 & A & B & C & D & E & F). subst m todo.
      assert (ticked n p) as Hp.
      { rewrite A in Ht. apply Forall_app in Ht as [_ Ht]. inversion Ht; assumption. }
      destruct p as [[r t1] t2]. cbn in Hp, C.
      exists (ds ++ [Moment r t1 t2 t3 n]), ps2. split; [rewrite map_app, <- app_assoc; exact A|].
      split; [apply Forall_app; split; [eapply in_order_all; [|exact B]; lia|constructor; [unfold in_order; cbn; lia|constructor]]|].
      assert (zlen (ds ++ [Moment r t1 t2 t3 n]) = zlen ds + 1) as Hz by (rewrite zlen_app; reflexivity).
      split; [rewrite Hz; f_equal; lia|]. rewrite F, w_shareds_app, <- !app_assoc. cbn [w_shareds]. rewrite app_nil_r.
      rewrite w_shared_split. cbn [moKey moVal moRec]. rewrite enc_nbytes_w, Hh. reflexivity.
    - apply ainv_other; [exact Hi|exists []; rewrite app_nil_r; reflexivity].
    - apply ainv_other; [exact Hi|exists []; rewrite app_nil_r; reflexivity].
  Qed.
End Inv.

Lemma arun_snoc s es e : arun s (es ++ [e]) = share_step (arun s es) e.
Proof. unfold arun. rewrite fold_left_app. reflexivity. Qed.
Lemma heap_bytes_run s es : heap_bytes (aHeap s) -> heap_bytes (aHeap (arun s es)).
Proof.
  revert s. induction es as [|e es IH]; intros s Hs; [exact Hs|]. apply IH. destruct e; cbn; try exact Hs.
  apply write_bytes, Hs.
Qed.

Theorem shared_delivery h log off max es out :
  let s := arun (ASys h log (afetch off max)) es in
  let H := heap_at (ASys h log (afetch off max)) es in
  heap_bytes h -> fPc (aFetch s) = PDone out ->
  exists ms, out = w_int32 (shared_size (map moRec ms)) ++ w_shareds H off ms /\
    map moRec ms = firstn (length ms) (skipn (Z.to_nat off) (aLog s)) /\
    Forall (in_order (length es)) ms.
Proof.
  cbv zeta. intros Hb Hd. set (s0 := ASys h log (afetch off max)) in *. set (H := heap_at s0 es).
  assert (Hall : forall m, heap_bytes (H m)) by (intros m; apply heap_bytes_run; exact Hb).
  assert (Hinv : forall n, (n <= length es)%nat -> ainv H off n (arun s0 (firstn n es))).
  { induction n as [|n IH]; intros Hn.
    - exists []. cbv zeta. change (zlen (@nil pick)) with 0. rewrite Z.add_0_r.
      split; [reflexivity|]. split; [reflexivity|]. split; [reflexivity|]. split; [apply enc_i32_w|].
      split; [reflexivity|]. split; [left; reflexivity|]. split; [constructor|exact I].
    - specialize (IH ltac:(lia)). destruct (nth_error es n) as [e|] eqn:Ee; [|apply nth_error_None in Ee; lia].
      assert (firstn (S n) es = firstn n es ++ [e]) as ->.
      { clear - Ee. revert es Ee. induction n as [|n IH]; intros [|y l] Hr; try discriminate Hr; cbn in *.
        - injection Hr as ->. reflexivity.
        - rewrite (IH l Hr). reflexivity. }
      rewrite arun_snoc. set (s1 := arun s0 (firstn n es)) in *.
      destruct e as [a i b|ts k v|x]; cbn [share_step].
      + apply ainv_other; [exact IH|exists []; rewrite app_nil_r; reflexivity].
      + apply ainv_other; [exact IH|eexists; reflexivity].
      + apply ainv_fetch; [exact Hall|reflexivity|exact IH]. }
  specialize (Hinv (length es) ltac:(lia)). rewrite firstn_all in Hinv.
  destruct Hinv as (ps & E1 & E2 & E3 & E4 & E5 & E6 & E7 & E8). unfold pc_ok in E8. rewrite Hd in E8.
  destruct E8 as (ds & -> & Hf & ->).
  assert (map pRec (map strip ds) = map moRec ds) as Em by (rewrite map_map; reflexivity). rewrite Em, map_length in *.
  exists ds. auto.
Qed.

(** *** Slices nobody writes to *)
Lemma set_nth_outside {A} (l : list A) i x m n : ~ (m <= i < m + n)%nat -> firstn n (skipn m (set_nth l i x)) = firstn n (skipn m l).
Proof.
  revert i m n. induction l as [|y l IH]; intros i m n Hi; [destruct i; reflexivity|].
  destruct i as [|i], m as [|m]; cbn.
  - destruct n as [|n]; [reflexivity|lia].
  - reflexivity.
  - destruct n as [|n]; [reflexivity|]. cbn. f_equal. apply (IH i 0%nat n). lia.
  - apply IH. lia.
Qed.
Lemma view_write h a i b o : ~ hits_slice a i o -> view (write_byte h a i b) o = view h o.
Proof.
  destruct o as [s|]; [|reflexivity]. cbn. intros Hn. f_equal. unfold read_slice, write_byte. rewrite nth_set_nth.
  destruct (Nat.eqb_spec a (sArr s)) as [->|Hne]; [|reflexivity]. rewrite andb_true_l. destruct (sArr s <? length h)%nat; [|reflexivity].
  apply set_nth_outside. intros Hc. apply Hn. auto.
Qed.
Lemma inside_write h a i b o : inside (write_byte h a i b) o <-> inside h o.
Proof.
  destruct o as [s|]; [|reflexivity]. cbn. unfold write_byte. rewrite nth_set_nth.
  destruct (Nat.eqb_spec a (sArr s)) as [->|Hne]; [|reflexivity]. rewrite andb_true_l. destruct (sArr s <? length h)%nat; [|reflexivity].
  rewrite set_nth_length. reflexivity.
Qed.
Lemma inside_run es : forall s o, inside (aHeap (arun s es)) o <-> inside (aHeap s) o.
Proof.
  induction es as [|e es IH]; intros s o; [reflexivity|]. change (arun s (e :: es)) with (arun (share_step s e) es). rewrite IH.
  destruct e; cbn [share_step aHeap]; try reflexivity. apply inside_write.
Qed.
Lemma view_run o es : forall s, (forall a i b, In (AWrite a i b) es -> ~ hits_slice a i o) -> view (aHeap (arun s es)) o = view (aHeap s) o.
Proof.
  induction es as [|e es IH]; intros s Hn; [reflexivity|]. change (arun s (e :: es)) with (arun (share_step s e) es).
  rewrite IH by (intros a i b Hin; apply (Hn a i b); right; exact Hin).
  destruct e as [a i b| |]; cbn [share_step aHeap]; try reflexivity. apply view_write, (Hn a i b). left. reflexivity.
Qed.
Lemma in_firstn {A} n (l : list A) x : In x (firstn n l) -> In x l.
Proof. intros Hx. rewrite <- (firstn_skipn n l). apply in_or_app. left. exact Hx. Qed.
Lemma in_skipn {A} n (l : list A) x : In x (skipn n l) -> In x l.
Proof. intros Hx. rewrite <- (firstn_skipn n l). apply in_or_app. right. exact Hx. Qed.

Lemma blen_view h o : inside h o -> blen (view h o) = slen o.
Proof.
  destruct o as [s|]; [|reflexivity]. cbn. intros Hi. unfold zlen, read_slice. rewrite firstn_length, skipn_length. lia.
Qed.
Lemma rec_size_content h r : inside h (aKey r) -> inside h (aVal r) -> rec_size (content h r) = arec_size r.
Proof. intros Hk Hv. unfold rec_size, content, arec_size. cbn [rKey rVal]. rewrite !blen_view by assumption. reflexivity. Qed.

(** What is delivered if at every moment the slices have the content of [h]. *)
Lemma shareds_same H h : forall ms off,
  (forall m n, In m ms -> view (H n) (aKey (moRec m)) = view h (aKey (moRec m)) /\ view (H n) (aVal (moRec m)) = view h (aVal (moRec m))) ->
  (forall m, In m ms -> inside h (aKey (moRec m)) /\ inside h (aVal (moRec m))) ->
  w_shareds H off ms = w_records off (map (content h) (map moRec ms)) /\
  shared_size (map moRec ms) = log_size (map (content h) (map moRec ms)).
Proof.
  induction ms as [|m ms IH]; intros off Hv Hi; [split; reflexivity|].
  destruct (IH (off + 1)) as [E1 E2]; [intros m' n Hm; apply Hv; right; exact Hm|intros m' Hm; apply Hi; right; exact Hm|].
  destruct (Hi m (or_introl eq_refl)) as [Hk Hv2]. pose proof (rec_size_content h (moRec m) Hk Hv2) as Es.
  cbn [map w_shareds w_records shared_size log_size fold_right]. split.
  - rewrite E1. f_equal. unfold w_shared, w_record. rewrite Es. cbn [content rTs rKey rVal].
    destruct (Hv m (moCrcKey m) (or_introl eq_refl)) as [-> _]. destruct (Hv m (moCrcVal m) (or_introl eq_refl)) as [_ ->].
    destruct (Hv m (moKey m) (or_introl eq_refl)) as [-> _]. destruct (Hv m (moVal m) (or_introl eq_refl)) as [_ ->]. reflexivity.
  - fold (shared_size (map moRec ms)). fold (log_size (map (content h) (map moRec ms))). rewrite E2, Es. reflexivity.
Qed.

Theorem unmodified_delivery h log off max es out :
  let s := arun (ASys h log (afetch off max)) es in
  heap_bytes h -> fPc (aFetch s) = PDone out ->
  (forall r, In r (aLog s) -> inside h (aKey r) /\ inside h (aVal r)) ->
  (forall a i b r, In (AWrite a i b) es -> In r (aLog s) -> ~ hits_slice a i (aKey r) /\ ~ hits_slice a i (aVal r)) ->
  exists n, let rs := map (content h) (firstn n (skipn (Z.to_nat off) (aLog s))) in
    out = w_int32 (log_size rs) ++ w_records off rs.
Proof.
  cbv zeta. intros Hb Hd Hin Hw. destruct (shared_delivery h log off max es out Hb Hd) as (ms & -> & Em & _).
  exists (length ms). rewrite <- Em.
  assert (Hlog : forall m, In m ms -> In (moRec m) (aLog (arun (ASys h log (afetch off max)) es))).
  { intros m Hm. apply (in_skipn (Z.to_nat off)), (in_firstn (length ms)). rewrite <- Em. apply in_map. exact Hm. }
  destruct (shareds_same (heap_at (ASys h log (afetch off max)) es) h ms off) as [E1 E2].
  - intros m n Hm. unfold heap_at. split; apply view_run; intros a i b Hx; apply in_firstn in Hx;
      apply (Hw a i b (moRec m) Hx (Hlog m Hm)).
  - intros m Hm. apply Hin, Hlog, Hm.
  - rewrite E1, E2. reflexivity.
Qed.

Definition is_fetch (e : aevent) : bool := match e with AFetch _ => true | _ => false end.
Definition is_write (e : aevent) : bool := match e with AWrite _ _ _ => true | _ => false end.
Lemma before_fetch es : forall s, existsb is_fetch es = false -> aFetch (arun s es) = aFetch s.
Proof.
  induction es as [|e es IH]; intros s Hn; [reflexivity|]. change (arun s (e :: es)) with (arun (share_step s e) es).
  cbn in Hn. apply orb_false_elim in Hn as [H1 H2]. rewrite IH by exact H2. destruct e; [reflexivity|reflexivity|discriminate H1].
Qed.

(** Writes before the Fetch starts show in what it delivers, with the right
    checksum. *)
Theorem current_delivery h log off max es1 es2 out :
  let s1 := arun (ASys h log (afetch off max)) es1 in
  let s := arun s1 es2 in
  heap_bytes h -> existsb is_fetch es1 = false -> existsb is_write es2 = false -> fPc (aFetch s) = PDone out ->
  (forall r, In r (aLog s) -> inside h (aKey r) /\ inside h (aVal r)) ->
  exists n, let rs := map (content (aHeap s1)) (firstn n (skipn (Z.to_nat off) (aLog s))) in
    out = w_int32 (log_size rs) ++ w_records off rs.
Proof.
  cbv zeta. intros Hb H1 H2 Hd Hin. set (s0 := ASys h log (afetch off max)) in *.
  assert (arun s0 es1 = ASys (aHeap (arun s0 es1)) (aLog (arun s0 es1)) (afetch off max)) as E.
  { pose proof (before_fetch es1 s0 H1) as E. destruct (arun s0 es1) as [h1 l1 f1]. cbn in E |- *. rewrite E. reflexivity. }
  rewrite E in Hd, Hin |- *. cbn [aHeap] in *.
  apply unmodified_delivery; [apply (heap_bytes_run s0 es1), Hb|exact Hd| |].
  - intros r Hr. destruct (Hin r Hr) as [Hk Hv]. split; apply (inside_run es1 s0); assumption.
  - intros a i b r Hx _. exfalso. enough (existsb is_write es2 = true) by congruence. apply existsb_exists. exists (AWrite a i b). auto.
Qed.

(** A change between the two readings is caught by the checksum. *)
Theorem changed_between H off m a w w' c :
  let r := moRec m in let v1 := view (H (moCrcVal m)) (aVal r) in let v2 := view (H (moVal m)) (aVal r) in
  (forall n, heap_bytes (H n)) -> view (H (moKey m)) (aKey r) = view (H (moCrcKey m)) (aKey r) ->
  v1 = Some (a ++ w ++ c) -> v2 = Some (a ++ w' ++ c) -> length w = length w' -> (length w <= 4)%nat -> w <> w' ->
  exists size crc tail, (w_shared H off m = w_int64 off ++ w_int32 size ++ w_int32 crc ++ tail) /\
    (tail = w_msg_tail (aTs r) (view (H (moKey m)) (aKey r)) v2) /\ w_int32 crc <> w_int32 (crc32c_spec tail).
Proof.
  cbv zeta. intros Hb Hk H1 H2 Hl H4 Hne. eexists _, _, _. split; [reflexivity|]. split; [reflexivity|].
  rewrite Hk, H1, H2. set (r := moRec m) in *. set (k := view (H (moCrcKey m)) (aKey r)).
  assert (Kb : obytes k = true) by apply view_bytes, Hb.
  assert (V1 : obytes (Some (a ++ w ++ c)) = true) by (rewrite <- H1; apply view_bytes, Hb).
  assert (V2 : obytes (Some (a ++ w' ++ c)) = true) by (rewrite <- H2; apply view_bytes, Hb).
  assert (Hw' : all_bytes w' = true).
  { cbn in V2. unfold all_bytes in *. rewrite !forallb_app, !andb_true_iff in V2. tauto. }
  assert (Hr : forall k v, obytes k = true -> obytes v = true -> 0 <= crc32c_spec (w_msg_tail (aTs r) k v) < 2 ^ 32).
  { intros k0 v Hk0 Hv. rewrite <- crc32c_correct by (apply tail_bytes; assumption). apply crc32c_range, tail_bytes; assumption. }
  intros E. apply w_int32_inj in E; [|apply Hr; assumption..]. symmetry in E. revert E.
  set (pre := w_int8 1 ++ w_int8 0 ++ w_int64 (aTs r) ++ w_bytes k ++ w_int32 (zlen (a ++ w ++ c)) ++ a).
  assert (E1 : w_msg_tail (aTs r) k (Some (a ++ w ++ c)) = pre ++ w ++ c).
  { unfold w_msg_tail, pre. cbn [w_bytes]. rewrite <- !app_assoc. reflexivity. }
  assert (E2 : w_msg_tail (aTs r) k (Some (a ++ w' ++ c)) = pre ++ w' ++ c).
  { unfold w_msg_tail, pre. cbn [w_bytes]. replace (zlen (a ++ w ++ c)) with (zlen (a ++ w' ++ c))
      by (unfold zlen; rewrite !app_length; lia). rewrite <- !app_assoc. reflexivity. }
  rewrite E2. eapply tail_corruption; eassumption.
Qed.

(** ** The log is what was posted *)
Lemma log_run es : forall s, aLog (arun s es) = aLog s ++ posted es.
Proof.
  induction es as [|e es IH]; intros s; [cbn; now rewrite app_nil_r|]. change (arun s (e :: es)) with (arun (share_step s e) es).
  rewrite IH. destruct e as [a i b|ts k v|x]; cbn [share_step aLog posted flat_map app]; try reflexivity.
  rewrite <- app_assoc. reflexivity.
Qed.
Lemma posted_app a b : posted (a ++ b) = posted a ++ posted b.
Proof. apply flat_map_app. Qed.
Lemma arun_app s a b : arun (arun s a) b = arun s (a ++ b).
Proof. unfold arun. now rewrite fold_left_app. Qed.
Lemma shared_posted h log off max es out :
  let s := arun (ASys h log (afetch off max)) es in
  let H := heap_at (ASys h log (afetch off max)) es in
  heap_bytes h -> fPc (aFetch s) = PDone out ->
  exists ms, out = w_int32 (shared_size (map moRec ms)) ++ w_shareds H off ms /\
    map moRec ms = firstn (length ms) (skipn (Z.to_nat off) (log ++ posted es)) /\
    Forall (in_order (length es)) ms.
Proof.
  cbv zeta. intros Hh Hd. pose proof (shared_delivery h log off max es out Hh Hd) as Q. cbv zeta in Q.
  rewrite (log_run es (ASys h log (afetch off max))) in Q. exact Q.
Qed.
Lemma unmodified_posted h log off max es out :
  let s := arun (ASys h log (afetch off max)) es in let all := log ++ posted es in
  heap_bytes h -> fPc (aFetch s) = PDone out ->
  (forall r, In r all -> inside h (aKey r) /\ inside h (aVal r)) ->
  (forall a i b r, In (AWrite a i b) es -> In r all -> ~ hits_slice a i (aKey r) /\ ~ hits_slice a i (aVal r)) ->
  exists n, let rs := map (content h) (firstn n (skipn (Z.to_nat off) all)) in
    out = w_int32 (log_size rs) ++ w_records off rs.
Proof.
  cbv zeta. intros Hh Hd. pose proof (unmodified_delivery h log off max es out Hh Hd) as Q. cbv zeta in Q.
  rewrite (log_run es (ASys h log (afetch off max))) in Q. exact Q.
Qed.
Lemma current_posted h log off max es1 es2 out :
  let s1 := arun (ASys h log (afetch off max)) es1 in
  let s := arun s1 es2 in let all := log ++ posted es1 ++ posted es2 in
  heap_bytes h -> existsb is_fetch es1 = false -> existsb is_write es2 = false -> fPc (aFetch s) = PDone out ->
  (forall r, In r all -> inside h (aKey r) /\ inside h (aVal r)) ->
  exists n, let rs := map (content (aHeap s1)) (firstn n (skipn (Z.to_nat off) all)) in
    out = w_int32 (log_size rs) ++ w_records off rs.
Proof.
  cbv zeta. intros Hh H1 H2 Hd. pose proof (current_delivery h log off max es1 es2 out Hh H1 H2 Hd) as Q. cbv zeta in Q.
  rewrite (log_run es2), (log_run es1) in Q. cbn [aLog] in Q. rewrite <- app_assoc in Q. exact Q.
Qed.
