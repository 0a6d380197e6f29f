(** * AllocProofs: bounds on the room the decoder sets aside *)
From Verif Require Export Alloc ShapeProofs.
From stdpp Require Import list.
From Coq Require Import ZifyBool ZifyNat.
Open Scope Z_scope.
Open Scope list_scope.

(** Types each value of which takes a byte at least. *)
Fixpoint solid (t : ty) : bool :=
  match t with
  | TStruct fs => existsb (fun f => solid (snd f)) fs
  | TPtr e => solid e
  | _ => true
  end.
(** All slices have such elements. *)
Fixpoint dense (t : ty) : bool :=
  match t with
  | TSlice e | TArray e | TMsgSet e => solid e && dense e
  | TStruct fs => forallb (fun f => dense (snd f)) fs
  | TPtr e => dense e
  | _ => true
  end.
(** How deep slices are nested. *)
Fixpoint nest (t : ty) : nat :=
  match t with
  | TCompactBytes => 1
  | TSlice e | TArray e | TMsgSet e => S (nest e)
  | TPtr e => nest e
  | TStruct fs => fold_right (fun f n => Nat.max (nest (snd f)) n) O fs
  | _ => O
  end.

Lemma zsum_app a b : zsum (a ++ b) = zsum a + zsum b.
Proof. induction a; cbn; lia. Qed.
Lemma zsum_perm a b : Permutation a b -> zsum a = zsum b.
Proof. induction 1; cbn; lia. Qed.

Definition small (n : Z) : Prop := 0 <= n < 2 ^ 31.
Definition open_by (k : nat) (l : list Z) (room : Z) : Prop :=
  exists open closed, Permutation l (open ++ closed)%list /\ (length open <= k)%nat /\ zsum closed <= room.

(** What is to be shown of a decoder [d] with room [g]. *)
Definition fine {A} (sol : bool) (k : nat) (d : bytes -> Z -> dres A) (g : bytes -> Z -> list Z) : Prop :=
  forall r off, 0 <= off <= zlen r -> Forall small (g r off) /\
    match d r off with
    | DOk e _ => off <= e <= zlen r /\ zsum (g r off) + Z.b2z sol <= e - off
    | _ => open_by k (g r off) (zlen r - off)
    end.


Lemma b2z_1 b : 0 <= Z.b2z b <= 1.
Proof. destruct b; cbn; lia. Qed.
Lemma open_nil k l room : zsum l <= room -> open_by k l room.
Proof. intros H. exists [], l. split; [reflexivity|]. split; [cbn; lia|exact H]. Qed.
Lemma open_le k k' l room room' : open_by k l room -> (k <= k')%nat -> room <= room' -> open_by k' l room'.
Proof. intros (a & b & H1 & H2 & H3) ? ?. exists a, b. repeat split; [assumption|lia|lia]. Qed.
Lemma open_cons k l room x : open_by k l room -> open_by (S k) (x :: l) room.
Proof. intros (a & b & H1 & H2 & H3). exists (x :: a), b. split; [cbn; now rewrite H1|]. cbn. split; [lia|assumption]. Qed.
Lemma open_app k l room x : open_by k l room -> open_by k (x ++ l) (zsum x + room).
Proof.
  intros (a & b & H1 & H2 & H3). exists a, (x ++ b). split; [rewrite H1; solve_Permutation|]. split; [assumption|]. rewrite zsum_app. lia.
Qed.

Lemma fine_none {A} (d : bytes -> Z -> dres A) :
  (forall r off e v, 0 <= off <= zlen r -> d r off = DOk e v -> off < e <= zlen r) -> forall b k, fine b k d (fun _ _ => []).
Proof.
  intros H b k r off Ho. split; [constructor|]. destruct (d r off) eqn:E.
  - apply H in E; [|assumption]. cbn. pose proof (b2z_1 b). lia.
  - apply open_nil. cbn. lia.
  - apply open_nil. cbn. lia.
Qed.

Lemma fine_items d ok g k : fine true k d g -> forall n r off, 0 <= off <= zlen r ->
  Forall small (rsv_items d ok g r n off) /\
  match dec_items d ok r n off with
  | DOk e _ => off <= e <= zlen r /\ zsum (rsv_items d ok g r n off) + Z.of_nat n <= e - off
  | _ => open_by k (rsv_items d ok g r n off) (zlen r - off)
  end.
Proof.
  intros H. induction n as [|n IH]; intros r off Ho.
  - cbn. split; [constructor|lia].
  - cbn [rsv_items dec_items]. destruct (H r off Ho) as [F1 F2]. destruct (d r off) as [e x| |] eqn:E.
    + destruct F2 as [F2 F3]. cbn in F3. destruct (ok x).
      * destruct (IH r e ltac:(lia)) as [G1 G2]. fold (rsv_items d ok g r n) in *. split; [now apply Forall_app|].
        destruct (dec_items d ok r n e) as [e' xs| |].
        -- rewrite zsum_app. lia.
        -- eapply open_le; [apply open_app, G2|lia|lia].
        -- eapply open_le; [apply open_app, G2|lia|lia].
      * rewrite app_nil_r. split; [assumption|]. apply open_nil. lia.
    + rewrite app_nil_r. auto.
    + rewrite app_nil_r. auto.
Qed.
Lemma fine_fixed d ok g k : fine true k d g -> forall r off n, 0 <= off <= zlen r -> n < 2 ^ 31 ->
  Forall small (rsv_fixed_array d ok g r off n) /\
  match dec_fixed_array d ok r off n with
  | DOk e _ => off <= e <= zlen r /\ zsum (rsv_fixed_array d ok g r off n) <= e - off
  | _ => open_by (S k) (rsv_fixed_array d ok g r off n) (zlen r - off)
  end.
Proof.
  intros H r off n Ho Hn. unfold rsv_fixed_array, dec_fixed_array. destruct (n <? 0) eqn:En.
  - cbn. split; [constructor|lia].
  - destruct (fine_items d ok g k H (Z.to_nat n) r off Ho) as [F1 F2]. split; [constructor; [unfold small; lia|assumption]|].
    destruct (dec_items d ok r (Z.to_nat n) off); cbn [dmap].
    + cbn [zsum]. lia.
    + now apply open_cons.
    + now apply open_cons.
Qed.
Lemma fixed_ok r off n e d : 0 <= off -> 0 < n -> peek_fixed r off n = DOk e d -> off < e <= zlen r.
Proof. intros H1 H2 H. unfold peek_fixed in H. destruct (peek r (off + n)) eqn:E; [|discriminate]. injection H as <- <-. apply peek_ok_inv in E. lia. Qed.
Lemma dmap_ok {A B} (f : A -> B) d e v : dmap f d = DOk e v -> exists w, d = DOk e w /\ v = f w.
Proof. destruct d; cbn; try discriminate. injection 1 as <- <-. eauto. Qed.
Lemma loop_ok w l : forall next sh acc e v, varuint_loop w l next sh acc = DOk e v -> next < e <= next + zlen l.
Proof.
  induction l as [|b l IH]; cbn; intros next sh acc e v H; [discriminate|]. rewrite zlen_cons. destruct (_ =? 0).
  - injection H as <- <-. pose proof (zlen_nonneg l). lia.
  - apply IH in H. lia.
Qed.
Lemma varuint_ok w m r off e v : 0 <= off <= zlen r -> peek_varuint_w w m r off = DOk e v -> off < e <= zlen r.
Proof.
  intros Ho H. apply loop_ok in H. unfold peek_avail, zlen in *. rewrite skipn_length, firstn_length in H. lia.
Qed.
Lemma varint_ok r off e v : 0 <= off <= zlen r -> peek_varint r off = DOk e v -> off < e <= zlen r.
Proof. intros Ho H. apply dmap_ok in H as (w & H & _). now apply varuint_ok in H. Qed.
Lemma sint_ok n r off e v : 0 <= off -> 0 < n -> peek_sint n r off = DOk e v -> off < e <= zlen r.
Proof. intros H1 H2 H. apply dmap_ok in H as (w & H & _). eauto using fixed_ok. Qed.
Lemma data16_ok r off e v : 0 <= off -> peek_data16 r off = DOk e v -> off < e <= zlen r.
Proof.
  intros Ho H. unfold peek_data16 in H. destruct (peek r (off + 2)) eqn:E; [|discriminate]. apply peek_ok_inv in E. cbv zeta in H.
  destruct (_ <? 0) eqn:Ec; [injection H as <- <-; lia|]. destruct (peek r (_ + _)) eqn:E2; [|discriminate]. apply peek_ok_inv in E2.
  injection H as <- <-. lia.
Qed.
Lemma cnbytes_ok r off e v : 0 <= off <= zlen r -> peek_cnbytes r off = DOk e v -> off < e <= zlen r.
Proof.
  intros Ho H. unfold peek_cnbytes in H. destruct (peek_varint r off) eqn:E; try discriminate. apply varint_ok in E; [|assumption].
  destruct (_ <=? 0) eqn:Ec; [injection H as <- <-; lia|]. destruct (peek r (_ + _)) eqn:E2; [|discriminate]. apply peek_ok_inv in E2.
  injection H as <- <-. lia.
Qed.
Lemma nbytes_ok r off e v : 0 <= off -> peek_nbytes r off = DOk e v -> off < e <= zlen r.
Proof.
  intros Ho H. unfold peek_nbytes in H. destruct (peek_sint 4 r off) eqn:E; try discriminate. apply sint_ok in E; [|assumption|lia].
  destruct (_ <? 0) eqn:Ec; [injection H as <- <-; lia|]. destruct (peek r (_ + _)) eqn:E2; [|discriminate]. apply peek_ok_inv in E2.
  injection H as <- <-. lia.
Qed.
Lemma fine_var d ok g k b : fine true k d g -> fine b (S k) (dec_var_array d ok) (rsv_var_array d ok g).
Proof.
  intros H r off Ho. unfold dec_var_array, rsv_var_array. pose proof (b2z_1 b). destruct (peek_sint 4 r off) as [next n| |] eqn:E.
  - assert (n < 2 ^ 31).
    { apply dmap_ok in E as (w & _ & ->). pose proof (swrap_range (8 * 4) (be_get w) ltac:(lia)). change (8 * 4 - 1) with 31 in *. lia. }
    apply sint_ok in E; [|lia|lia].
    destruct (fine_fixed d ok g k H r next n ltac:(lia) ltac:(lia)) as [F1 F2]. split; [assumption|].
    destruct (dec_fixed_array d ok r next n); [lia| |]; (eapply open_le; [exact F2|lia|lia]).
  - split; [constructor|]. apply open_nil. cbn. lia.
  - split; [constructor|]. apply open_nil. cbn. lia.
Qed.
Lemma fine_compact d ok g k b : fine true k d g -> fine b (S k) (dec_compact_array d ok) (rsv_compact_array d ok g).
Proof.
  intros H r off Ho. unfold dec_compact_array, rsv_compact_array. pose proof (b2z_1 b). destruct (peek_varint r off) as [next n| |] eqn:E.
  - apply varint_ok in E; [|lia]. destruct (n =? 0); [cbn; split; [constructor|lia]|].
    pose proof (swrap_range 32 (n - 1) ltac:(lia)). change (32 - 1) with 31 in *.
    destruct (fine_fixed d ok g k H r next (swrap 32 (n - 1)) ltac:(lia) ltac:(lia)) as [F1 F2]. split; [assumption|].
    destruct (dec_fixed_array d ok r next _); [lia| |]; (eapply open_le; [exact F2|lia|lia]).
  - split; [constructor|]. apply open_nil. cbn. lia.
  - split; [constructor|]. apply open_nil. cbn. lia.
Qed.
Lemma fine_dmap {A B} (f : A -> B) b k d g : fine b k d g -> fine b k (fun r o => dmap f (d r o)) g.
Proof. intros H r off Ho. destruct (H r off Ho) as [F1 F2]. split; [assumption|]. destruct (d r off); exact F2. Qed.
Lemma fine_le {A} b k k' (d : bytes -> Z -> dres A) g : fine b k d g -> (k <= k')%nat -> fine b k' d g.
Proof. intros H Hk r off Ho. destruct (H r off Ho) as [F1 F2]. split; [assumption|]. destruct (d r off); [assumption| |]; (eapply open_le; [exact F2|lia|lia]). Qed.
Lemma fine_weak {A} b k (d : bytes -> Z -> dres A) g : fine true k d g -> fine b k d g.
Proof. intros H r off Ho. destruct (H r off Ho) as [F1 F2]. split; [assumption|]. destruct (d r off); [|assumption|assumption]. pose proof (b2z_1 b). cbn in F2. lia. Qed.

Lemma fine_dec t : dense t = true -> forall c, fine (solid t) (nest t) (dec t c) (rsv t c).
Proof.
  induction t as [t Hbase|e IH|e IH|e IH|fs IH|e IH] using ty_ind'; intros Hd c.
  - destruct t; try contradiction; try (apply fine_none; intros r off x v Ho E; cbn [dec] in E; apply dmap_ok in E as (w & E & _);
      eauto using data16_ok, cnbytes_ok, nbytes_ok, varint_ok, varuint_ok;
      try (eapply sint_ok in E; [eassumption|lia|lia]);
      try (apply dmap_ok in E as (w' & E & _); first [eapply fixed_ok in E; [eassumption|lia|lia] | eapply varuint_ok in E; eassumption])).
    + apply data16_ok in E; [assumption|lia].
    + apply data16_ok in E; [assumption|lia].
    + apply nbytes_ok in E; [assumption|lia].
    + assert (F : fine true 0 (fun r o => dmap VInt (peek_uint 1 r o)) (fun _ _ => [])).
      { apply fine_none. intros r off x v Ho E. apply dmap_ok in E as (w & E & _). apply dmap_ok in E as (w' & E & _). eapply fixed_ok in E; [eassumption|lia|lia]. }
      destruct c; [exact (fine_compact _ (settable TUint8) _ _ _ F)|exact (fine_var _ (settable TUint8) _ _ _ F)].
    + eapply fixed_ok in E; [eassumption|lia|lia].
  - cbn [dense] in Hd. apply andb_prop in Hd as [Hs Hd]. specialize (IH Hd false). rewrite Hs in IH.
    destruct c; [exact (fine_compact _ (settable e) _ _ _ IH)|exact (fine_var _ (settable e) _ _ _ IH)].
  - cbn [dense] in Hd. apply andb_prop in Hd as [Hs Hd]. specialize (IH Hd false). rewrite Hs in IH. exact (fine_compact _ (settable e) _ _ _ IH).
  - cbn [dense] in Hd. specialize (IH Hd false).
    destruct e; try (intros r off Ho; cbn; split; [constructor|]; apply open_nil; cbn; lia).
    + exact (fine_dmap _ _ _ _ _ IH).
    + exact (fine_dmap _ _ _ _ _ IH).
  - cbn [dense solid nest] in *. intros r off Ho. cbn [dec rsv].
    enough (forall off, 0 <= off <= zlen r -> Forall small (rsv_fields rsv r fs off) /\
      match dec_fields dec r fs off with
      | DOk e _ => off <= e <= zlen r /\ zsum (rsv_fields rsv r fs off) + Z.b2z (existsb (fun f => solid (snd f)) fs) <= e - off
      | _ => open_by (fold_right (fun f n => Nat.max (nest (snd f)) n) O fs) (rsv_fields rsv r fs off) (zlen r - off)
      end) as G.
    { destruct (G off Ho) as [G1 G2]. split; [assumption|]. destruct (dec_fields dec r fs off); exact G2. }
    clear off Ho. induction fs as [|[tg t] fs IHf]; intros off Ho.
    { cbn. split; [constructor|lia]. }
    apply Forall_cons in IH as [IHt IHfs]. cbn [forallb snd] in Hd. apply andb_prop in Hd as [Hd Hds]. specialize (IHf IHfs Hds).
    specialize (IHt Hd (tCompact tg) r off Ho) as [F1 F2]. cbn [snd] in *. cbn [rsv_fields dec_fields existsb fold_right snd].
    destruct (dec t (tCompact tg) r off) as [e x| |].
    + destruct F2 as [F2 F3]. destruct (settable t x).
      * destruct (IHf e ltac:(lia)) as [G1 G2]. split; [now apply Forall_app|]. destruct (dec_fields dec r fs e).
        -- rewrite zsum_app. destruct (solid t), (existsb _ fs); cbn in *; lia.
        -- pose proof (b2z_1 (solid t)). eapply open_le; [apply open_app, G2|lia|lia].
        -- pose proof (b2z_1 (solid t)). eapply open_le; [apply open_app, G2|lia|lia].
      * rewrite app_nil_r. split; [assumption|]. pose proof (b2z_1 (solid t)). apply open_nil. lia.
    + rewrite app_nil_r. split; [assumption|]. eapply open_le; [exact F2|lia|lia].
    + rewrite app_nil_r. split; [assumption|]. eapply open_le; [exact F2|lia|lia].
  - cbn [dense] in Hd. apply andb_prop in Hd as [Hs Hd]. specialize (IH Hd false). rewrite Hs in IH.
    pose proof (fine_var _ (settable e) _ _ true IH) as F. intros r off Ho. destruct (F r off Ho) as [F1 F2]. cbn [dec rsv]. split; [exact F1|].
    cbn [nest]. destruct (dec_var_array (dec e false) (settable e) r off); [|assumption|assumption]. apply open_nil. cbn in F2. lia.
Qed.

(** Messages *)
Lemma request_types a t : request_type a = Some t -> dense t = true /\ (nest t <= 2)%nat.
Proof. destruct a; intros [= <-]; (split; [reflexivity|cbn; lia]). Qed.
Lemma zlen_skip (l : bytes) n : 0 <= n -> zlen (discard l n) <= zlen l.
Proof. intros. unfold discard, zlen. rewrite skipn_length. lia. Qed.
Lemma str_ok r off e v : 0 <= off -> peekString r off = DOk e v -> off < e <= zlen r.
Proof. intros Ho H. apply dmap_ok in H as (w & H & _). now apply data16_ok in H. Qed.
Lemma head_ok msg e v : peekObject msg 0 tHeader0 = DOk e v -> 0 <= e <= zlen msg.
Proof.
  intros H. destruct (fine_dec tHeader0 eq_refl false msg 0 ltac:(pose proof (zlen_nonneg msg); lia)) as [_ F].
  unfold peekObject in H. rewrite H in F. cbn in F. lia.
Qed.
Lemma with_req_ok {A} t (f : val -> option A) body k rest tk : with_req t f body k = Some (rest, tk) ->
  exists e v, dec t false body 0 = DOk e v.
Proof. unfold with_req, readRequest, peekObject. destruct (dec t false body 0) as [e v| |]; [eauto|discriminate|discriminate]. Qed.
Lemma start_ok a port body rest tk t : startApi a port body = Some (rest, tk) -> request_type a = Some t ->
  exists e v, dec t false body 0 = DOk e v.
Proof. destruct a; cbn [startApi request_type]; intros H [= <-]; eauto using with_req_ok. Qed.

Lemma reserved_any msg : Forall small (reserved msg) /\ open_by 2 (reserved msg) (zlen msg).
Proof.
  assert (N : Forall small [] /\ open_by 2 [] (zlen msg)).
  { split; [constructor|]. apply open_nil. cbn. apply zlen_nonneg. }
  unfold reserved. destruct (peekObject msg 0 tHeader0) as [next v| |] eqn:E; try exact N. apply head_ok in E.
  destruct v; try exact N. destruct fs as [|v1 [|v2 [|v3 [|? ?]]]]; try exact N; try (destruct v1; exact N); try (destruct v1; try exact N; destruct v2; exact N).
  2: destruct v1; try exact N; destruct v2; try exact N; destruct v3; exact N.
  destruct v1; try exact N. destruct v2; try exact N. destruct v3; try exact N.
  destruct (peekString msg next) as [next2 c| |] eqn:E2; try exact N. apply str_ok in E2; [|lia].
  destruct (dispatch _ _) as [a|]; [|exact N]. destruct (request_type a) as [t|] eqn:Et; [|exact N]. apply request_types in Et as [Hd Hn].
  pose proof (zlen_nonneg (discard msg next2)). pose proof (zlen_skip msg next2 ltac:(lia)).
  destruct (fine_dec t Hd false (discard msg next2) 0 ltac:(lia)) as [F1 F2]. split; [exact F1|].
  destruct (dec t false (discard msg next2) 0).
  - apply open_nil. pose proof (b2z_1 (solid t)). lia.
  - eapply open_le; [exact F2|lia|lia].
  - eapply open_le; [exact F2|lia|lia].
Qed.
Lemma reserved_taken port msg x : beginRequest port msg = Some x -> zsum (reserved msg) <= zlen msg.
Proof.
  pose proof (zlen_nonneg msg) as N. unfold beginRequest, reserved. destruct (peekObject msg 0 tHeader0) as [next v| |] eqn:E; try discriminate. apply head_ok in E.
  destruct v; try discriminate. destruct fs as [|v1 [|v2 [|v3 [|? ?]]]]; try discriminate; try (destruct v1; discriminate); try (destruct v1; try discriminate; destruct v2; discriminate).
  2: destruct v1; try discriminate; destruct v2; try discriminate; destruct v3; discriminate.
  destruct v1; try discriminate. destruct v2; try discriminate. destruct v3; try discriminate.
  destruct (peekString msg next) as [next2 c| |] eqn:E2; try discriminate. apply str_ok in E2; [|lia].
  destruct (dispatch _ _) as [a|]; [|discriminate]. destruct (startApi a port _) as [[rest tk]|] eqn:Es; [|discriminate]. intros _.
  destruct (request_type a) as [t|] eqn:Et; [|exact N]. destruct (start_ok _ _ _ _ _ _ Es Et) as (e & w & Ed). apply request_types in Et as [Hd Hn].
  pose proof (zlen_nonneg (discard msg next2)). pose proof (zlen_skip msg next2 ltac:(lia)).
  destruct (fine_dec t Hd false (discard msg next2) 0 ltac:(lia)) as [F1 F2]. rewrite Ed in F2. pose proof (b2z_1 (solid t)). lia.
Qed.

(** ** Messages that ask for much *)
Lemma rsv_first d ok g r off n : 0 < n -> rsv_fixed_array d ok g r off n =
  n :: g r off ++ match d r off with DOk next x => if ok x then rsv_items d ok g r (Z.to_nat (n - 1)) next else [] | _ => [] end.
Proof.
  intros Hn. unfold rsv_fixed_array. destruct (n <? 0) eqn:E; [lia|]. replace (Z.to_nat n) with (S (Z.to_nat (n - 1))) by lia. reflexivity.
Qed.
(** Header with an empty client id. *)
Definition head (key ver : Z) : bytes := be_put 2 key ++ be_put 2 ver ++ [0; 0; 0; 0; 0; 0].
Lemma count_at pre n more : - 2 ^ 31 <= n < 2 ^ 31 -> zlen pre + 4 <= bufsize ->
  peek_sint 4 (pre ++ enc_i32 n ++ more) (zlen pre) = DOk (zlen pre + 4) n.
Proof.
  intros Hn Hp. assert (Hg : good (peek_sint 4) (enc_i32 n) n) by (apply good_sint; [lia|exact Hn|reflexivity]).
  destruct (Hg pre) as [G _]. apply G. exact Hp.
Qed.
Lemma four n : exists a b c d, enc_i32 n = [a; b; c; d].
Proof. unfold enc_i32. cbn. eauto. Qed.
Lemma dec_first d ok r off n : 0 < n -> d r off = DFail -> dec_fixed_array d ok r off n = DFail.
Proof.
  intros Hn E. unfold dec_fixed_array. destruct (n <? 0) eqn:En; [lia|]. replace (Z.to_nat n) with (S (Z.to_nat (n - 1))) by lia.
  cbn [dec_items]. now rewrite E.
Qed.
Lemma ask_metadata n : 0 < n < 2 ^ 31 -> reserved (head 3 1 ++ enc_i32 n) = [n].
Proof.
  intros Hn. pose proof (count_at [] n [] ltac:(lia) ltac:(vm_compute; discriminate)) as H. cbn [app] in H. rewrite app_nil_r in H.
  change (zlen []) with 0 in H. change (0 + 4) with 4 in H.
  transitivity (rsv tMetadataReq false (enc_i32 n) 0).
  - destruct (four n) as (a & b & c & d & ->). reflexivity.
  - assert (E : dec TString false (enc_i32 n) 4 = DFail) by (destruct (four n) as (a & b & c & d & ->); reflexivity).
    assert (D : dec (TSlice TString) false (enc_i32 n) 0 = DFail).
    { change (dec (TSlice _) false ?b 0) with (dec_var_array (dec TString false) (settable TString) b 0). unfold dec_var_array. rewrite H.
      apply dec_first; [lia|exact E]. }
    assert (R : rsv (TSlice TString) false (enc_i32 n) 0 = [n]).
    { change (rsv (TSlice _) false ?b 0) with (rsv_var_array (dec TString false) (settable TString) (rsv TString false) b 0). unfold rsv_var_array.
      rewrite H, rsv_first, E by lia. reflexivity. }
    change (rsv tMetadataReq false ?b 0) with (rsv_fields rsv b [(plain, TSlice TString)] 0).
    cbn [rsv_fields tCompact plain]. now rewrite D, R.
Qed.
Lemma ask_offsets n m : 0 < n < 2 ^ 31 -> 0 < m < 2 ^ 31 -> reserved (head 9 1 ++ [0; 0] ++ enc_i32 n ++ [0; 0] ++ enc_i32 m) = [n; m].
Proof.
  intros Hn Hm. set (b := [0; 0] ++ enc_i32 n ++ [0; 0] ++ enc_i32 m).
  assert (H1 : peek_sint 4 b 2 = DOk 6 n).
  { apply (count_at [0; 0] n ([0; 0] ++ enc_i32 m)); [lia|vm_compute; discriminate]. }
  assert (H2 : peek_sint 4 b 8 = DOk 12 m).
  { pose proof (count_at ([0; 0] ++ enc_i32 n ++ [0; 0]) m [] ltac:(lia)) as H. rewrite app_nil_r, <- !app_assoc in H.
    destruct (four n) as (a' & b' & c' & d' & E). subst b. rewrite E in *. apply H. vm_compute. discriminate. }
  assert (E0 : dec TString false b 0 = DOk 2 (VStr [])).
  { subst b. destruct (four n) as (a' & b' & c' & d' & ->), (four m) as (a1 & b1 & c1 & d1 & ->). reflexivity. }
  assert (E6 : dec TString false b 6 = DOk 8 (VStr [])).
  { subst b. destruct (four n) as (a' & b' & c' & d' & ->), (four m) as (a1 & b1 & c1 & d1 & ->). reflexivity. }
  assert (E12 : dec TInt32 false b 12 = DFail).
  { subst b. destruct (four n) as (a' & b' & c' & d' & ->), (four m) as (a1 & b1 & c1 & d1 & ->). reflexivity. }
  assert (D8 : dec (TSlice TInt32) false b 8 = DFail).
  { cbn [dec]. unfold dec_var_array. rewrite H2. apply dec_first; [lia|exact E12]. }
  assert (R8 : rsv (TSlice TInt32) false b 8 = [m]).
  { cbn [rsv]. unfold rsv_var_array. rewrite H2, rsv_first, E12 by lia. reflexivity. }
  assert (D6 : dec tOffReqTopic false b 6 = DFail).
  { change (dec tOffReqTopic false b 6) with (dmap VStruct (dec_fields dec b [(plain, TString); (plain, TSlice TInt32)] 6)).
    cbn [dec_fields tCompact plain]. rewrite E6. cbn [settable]. now rewrite D8. }
  assert (R6 : rsv tOffReqTopic false b 6 = [m]).
  { change (rsv tOffReqTopic false b 6) with (rsv_fields rsv b [(plain, TString); (plain, TSlice TInt32)] 6).
    cbn [rsv_fields tCompact plain]. rewrite E6. cbn [settable]. now rewrite D8, R8. }
  assert (D2 : dec (TSlice tOffReqTopic) false b 2 = DFail).
  { change (dec (TSlice _) false b 2) with (dec_var_array (dec tOffReqTopic false) (settable tOffReqTopic) b 2). unfold dec_var_array. rewrite H1.
    apply dec_first; [lia|exact D6]. }
  assert (R2 : rsv (TSlice tOffReqTopic) false b 2 = [n; m]).
  { change (rsv (TSlice _) false b 2) with (rsv_var_array (dec tOffReqTopic false) (settable tOffReqTopic) (rsv tOffReqTopic false) b 2).
    unfold rsv_var_array. rewrite H1, rsv_first, D6, R6 by lia. reflexivity. }
  transitivity (rsv tOffReq false b 0).
  - subst b. destruct (four n) as (a' & b' & c' & d' & ->), (four m) as (a1 & b1 & c1 & d1 & ->). reflexivity.
  - change (rsv tOffReq false b 0) with (rsv_fields rsv b [(plain, TString); (plain, TSlice tOffReqTopic)] 0).
    cbn [rsv_fields tCompact plain]. rewrite E0. cbn [settable]. now rewrite D2, R2.
Qed.

(** ** Room and values *)
Definition exact_room (d : bytes -> Z -> dres val) (g : bytes -> Z -> list Z) : Prop :=
  forall r off e v, d r off = DOk e v -> g r off = slice_lengths v.
Lemma exact_items d ok g : exact_room d g -> forall r n off e xs, dec_items d ok r n off = DOk e xs ->
  rsv_items d ok g r n off = flat_map slice_lengths xs /\ length xs = n.
Proof.
  intros H r. induction n as [|n IH]; intros off e xs E.
  - injection E as <- <-. auto.
  - cbn [dec_items rsv_items] in *. destruct (d r off) as [e1 x| |] eqn:Ed; [|discriminate|discriminate]. destruct (ok x); [|discriminate].
    destruct (dec_items d ok r n e1) as [e2 ys| |] eqn:Ei; [|discriminate|discriminate]. injection E as <- <-.
    apply IH in Ei as [Ei El]. apply H in Ed. cbn [flat_map length]. rewrite Ed, El. split; [f_equal; exact Ei|reflexivity].
Qed.
Lemma exact_fixed d ok g : exact_room d g -> forall r off n e v, dec_fixed_array d ok r off n = DOk e v -> rsv_fixed_array d ok g r off n = slice_lengths v.
Proof.
  intros H r off n e v E. unfold dec_fixed_array, rsv_fixed_array in *. destruct (n <? 0) eqn:En; [injection E as <- <-; reflexivity|].
  apply dmap_ok in E as (xs & E & ->). apply (exact_items d ok g H) in E as [E El]. cbn [slice_lengths]. rewrite E. f_equal. unfold zlen. lia.
Qed.
Lemma exact_var d ok g : exact_room d g -> exact_room (dec_var_array d ok) (rsv_var_array d ok g).
Proof.
  intros H r off e v E. unfold dec_var_array, rsv_var_array in *. destruct (peek_sint 4 r off); [|discriminate|discriminate]. eauto using exact_fixed.
Qed.
Lemma exact_compact d ok g : exact_room d g -> exact_room (dec_compact_array d ok) (rsv_compact_array d ok g).
Proof.
  intros H r off e v E. unfold dec_compact_array, rsv_compact_array in *. destruct (peek_varint r off); [|discriminate|discriminate].
  destruct (_ =? 0); [injection E as <- <-; reflexivity|]. eauto using exact_fixed.
Qed.
Lemma exact_dec t : forall c, exact_room (dec t c) (rsv t c).
Proof.
  induction t as [t Hbase|e IH|e IH|e IH|fs IH|e IH] using ty_ind'; intros c.
  - destruct t; try contradiction; try (intros r off x v E; cbn [dec] in E; apply dmap_ok in E as (w & E & ->); reflexivity).
    assert (F : exact_room (fun r o => dmap VInt (peek_uint 1 r o)) (fun _ _ => [])).
    { intros r off x v E. apply dmap_ok in E as (w & E & ->). reflexivity. }
    destruct c; [exact (exact_compact _ (settable TUint8) _ F)|exact (exact_var _ (settable TUint8) _ F)].
  - destruct c; [exact (exact_compact _ (settable e) _ (IH false))|exact (exact_var _ (settable e) _ (IH false))].
  - exact (exact_compact _ (settable e) _ (IH false)).
  - intros r off x v E. destruct e; try discriminate; cbn [dec] in E; apply dmap_ok in E as (w & E & ->); exact (IH false r off x w E).
  - intros r off x v E. cbn [dec rsv] in *. apply dmap_ok in E as (xs & E & ->). cbn [slice_lengths].
    revert off x xs E. induction fs as [|[tg t] fs IHf]; intros off x xs E.
    { injection E as <- <-. reflexivity. }
    apply Forall_cons in IH as [IHt IHfs]. cbn [dec_fields rsv_fields snd] in *.
    destruct (dec t (tCompact tg) r off) as [e1 y| |] eqn:Ed; [|discriminate|discriminate]. destruct (settable t y); [|discriminate].
    destruct (dec_fields dec r fs e1) as [e2 ys| |] eqn:Ef; [|discriminate|discriminate]. injection E as <- <-.
    cbn [flat_map]. rewrite (IHt _ _ _ _ _ Ed). f_equal. eapply IHf; eassumption.
  - intros r off x v E. cbn [dec] in E. destruct (dec_var_array _ _ _ _); discriminate.
Qed.
