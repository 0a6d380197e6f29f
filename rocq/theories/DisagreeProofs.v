(** * DisagreeProofs: what the encoder panics on, what the decoder never accepts,
    and what one writes and the other reads differently *)
From Verif Require Export DisagreeSpec CodecMore AllocProofs.
From Coq Require Import ZifyBool ZifyNat.
Ltac Zify.zify_post_hook ::= Z.div_mod_to_equations.
Open Scope Z_scope.

(** ** The encoder *)
Lemma oapp_none a b : oapp a b = None <-> a = None \/ b = None.
Proof. destruct a, b; cbn; split; intros H; auto; try discriminate; destruct H; discriminate. Qed.
Lemma items_none f l : enc_items f l = None <-> exists x, In x l /\ f x = None.
Proof.
  induction l as [|x l IH]; [split; [discriminate|intros (? & [] & _)]|].
  change (enc_items f (x :: l)) with (oapp (f x) (enc_items f l)). rewrite oapp_none, IH. split.
  - intros [H|(y & Hy & H)]; [exists x; cbn; auto|exists y; cbn; auto].
  - intros (y & [->|Hy] & H); eauto.
Qed.
Lemma val_bytes_typed l : Forall (typed TUint8) l -> exists b, val_bytes l = Some b.
Proof.
  induction 1 as [|x l [z ->] _ [b IH]]; [exists []; reflexivity|]. exists (uwrap 8 z :: b).
  change (val_bytes (VInt z :: l)) with (match val_bytes l with Some r => Some (uwrap 8 z :: r) | None => None end). now rewrite IH.
Qed.

Ltac no_named := match goal with K : named_bytes _ |- _ => exfalso; destruct K as [K|[K|K]]; discriminate K end.
Lemma base_trouble t n c v : (match t with TSlice _ | TArray _ | TPtr _ | TStruct _ | TMsgSet _ => False | _ => True end) -> trouble t n c v ->
  named_bytes t /\ (n = true \/ c = true) \/ t = TString /\ n = true /\ c = true /\ exists s, v = VStr s.
Proof. intros Hb H. inversion H; subst; try contradiction; [left|right]; eauto 6. Qed.
Lemma slice_trouble e n c l : trouble (TSlice e) n c (VSlice (Some l)) <-> exists x, In x l /\ trouble e false false x.
Proof. split; [intros H; inversion H; subst; [no_named|eauto]|intros (x & H1 & H2); eapply tr_elem; eauto]. Qed.
Lemma ptr_trouble e n c x : trouble (TPtr e) n c (VPtr (Some x)) <-> trouble e true c x.
Proof. split; [intros H; inversion H; subst; [no_named|assumption]|apply tr_ptr]. Qed.
Lemma nil_trouble e n c : trouble (TPtr e) n c (VPtr None) <-> e <> TString.
Proof. split; [intros H; inversion H; subst; [no_named|assumption]|apply tr_nil]. Qed.
Lemma msg_trouble tm n c total l : trouble (TMsgSet tm) n c (VMsgSet total l) <-> exists x, In x l /\ trouble tm false false x.
Proof. split; [intros H; inversion H; subst; [no_named|eauto]|intros (x & H1 & H2); eapply tr_msg; eauto]. Qed.
Lemma uint8_trouble n c v : ~ trouble TUint8 n c v.
Proof. intros H. inversion H; subst. no_named. Qed.
Lemma fields_trouble tg t fs x vs n c : trouble (TStruct ((tg, t) :: fs)) n c (VStruct (x :: vs)) <->
  trouble t (tNullable tg) (tCompact tg) x \/ trouble (TStruct fs) n c (VStruct vs).
Proof.
  split.
  - intros H. inversion H as [| | | | | | |fs1 tg' t' fs2 vs1 x' vs2 n' c' Hl Ht E1 E2 E3 E4]; subst; [no_named|].
    destruct fs1 as [|f fs1], vs1 as [|y vs1]; try discriminate Hl; cbn in *.
    + injection E1 as -> -> ->. injection E4 as -> ->. auto.
    + injection E1 as -> <-. injection E4 as -> <-. right. apply tr_field; auto.
  - intros [H|H].
    + apply (tr_field [] tg t fs [] x vs); auto.
    + inversion H as [| | | | | | |fs1 tg' t' fs2 vs1 x' vs2 n' c' Hl Ht E1 E2 E3 E4]; subst; [no_named|].
      apply (tr_field ((tg, t) :: fs1) tg' t' fs2 (x :: vs1) x' vs2); cbn; auto.
Qed.
Lemma no_fields_trouble n c vs : ~ trouble (TStruct []) n c (VStruct vs).
Proof. intros H. inversion H as [| | | | | | |fs1 tg' t' fs2 vs1 x' vs2 n' c' Hl Ht E1 E2 E3 E4]; subst; [no_named|]. destruct fs1; discriminate. Qed.

Lemma enc_slice_none e n c l : Forall (typed e) l -> (forall x, typed e x -> (enc e false false x = None <-> trouble e false false x)) ->
  (enc (TSlice e) n c (VSlice (Some l)) = None <-> exists x, In x l /\ trouble e false false x).
Proof.
  intros Hl IH. assert (G : enc_items (enc e false false) l = None <-> exists x, In x l /\ trouble e false false x).
  { rewrite items_none. rewrite Forall_forall in Hl. split; intros (x & Hx & H); exists x; (split; [assumption|]); now apply (IH x (Hl x Hx)). }
  destruct (match e with TUint8 => true | _ => false end) eqn:Ee.
  - destruct e; try discriminate Ee. destruct (val_bytes_typed l Hl) as [b Hb]. cbn [enc]. rewrite Hb. cbn [obind].
    split; [discriminate|]. intros (x & _ & H). now apply uint8_trouble in H.
  - assert (E : enc (TSlice e) n c (VSlice (Some l)) = oapp (Some (if c then enc_varint (swrap 32 (swrap 32 (zlen l) + 1)) else enc_i32 (swrap 32 (zlen l)))) (enc_items (enc e false false) l))
      by (destruct e; try discriminate Ee; reflexivity).
    rewrite E, oapp_none. rewrite <- G. split; [intros [H|H]; [discriminate H|assumption]|auto].
Qed.

Theorem enc_panics : forall t n c v, typed t v -> (enc t n c v = None <-> trouble t n c v).
Proof.
  induction t as [t Hbase|e IH|e IH|e IH|fs IH|e IH] using ty_ind'; intros n c v Hv.
  - split.
    + intros H. destruct t; try contradiction; cbn in Hv; destruct Hv as [z ->]; try discriminate H; cbn in H.
      1: destruct c, n; try discriminate H; apply tr_string.
      all: apply tr_named; [unfold named_bytes; auto|]; destruct c, n; auto; discriminate H.
    + intros H. apply (base_trouble t n c v Hbase) in H as [[Ht Hf]|(-> & -> & -> & s & ->)]; [|reflexivity].
      assert (E : c || n = true) by (destruct Hf as [->| ->]; [apply orb_true_r|reflexivity]).
      destruct Ht as [->|[->| ->]]; cbn [enc]; now rewrite E.
  - destruct Hv as [->|(l & -> & Hl)].
    + split; [intros H; destruct e; discriminate H|]. intros H. inversion H; subst. no_named.
    + rewrite slice_trouble. apply enc_slice_none; [assumption|]. intros x Hx. now apply IH.
  - split; [intros _; apply tr_array|reflexivity].
  - destruct Hv as [->|(x & -> & Hx)].
    + rewrite nil_trouble. split; [intros H ->; destruct c; discriminate H|]. intros H. cbn [enc]. destruct e; try reflexivity. contradiction.
    + rewrite ptr_trouble. cbn [enc]. now apply IH.
  - destruct Hv as (vs & -> & Hvs). cbn [enc]. revert vs Hvs. induction IH as [|[tg t'] fs Ht _ IHfs]; intros [|x vs] Hvs; try contradiction.
    + split; [discriminate|]. intros H. now apply no_fields_trouble in H.
    + destruct Hvs as [Hx Hvs]. cbn [snd] in Ht. rewrite fields_trouble.
      change (enc_fields enc ((tg, t') :: fs) (x :: vs)) with (oapp (enc t' (tNullable tg) (tCompact tg) x) (enc_fields enc fs vs)).
      rewrite oapp_none, (Ht _ _ _ Hx). rewrite (IHfs vs Hvs). tauto.
  - destruct Hv as (total & l & -> & Hl). rewrite msg_trouble. cbn [enc]. rewrite oapp_none, items_none. rewrite Forall_forall in Hl. split.
    + intros [H|(x & Hx & H)]; [discriminate H|]. exists x. split; [assumption|]. now apply (IH _ _ _ (Hl x Hx)).
    + intros (x & Hx & H). right. exists x. split; [assumption|]. now apply (IH _ _ _ (Hl x Hx)).
Qed.

(** ** The decoder *)
Lemma ok_fields r fs : forall off e vs, dec_fields dec r fs off = DOk e vs ->
  match fs with
  | [] => e = off /\ vs = []
  | (tg, t') :: fs' => exists n x vs', dec t' (tCompact tg) r off = DOk n x /\ settable t' x = true /\ dec_fields dec r fs' n = DOk e vs' /\ vs = x :: vs'
  end.
Proof.
  destruct fs as [|[tg t'] fs']; intros off e vs H; cbn in H; [injection H as <- <-; auto|]. fold (dec_fields dec r) in H.
  destruct (dec t' (tCompact tg) r off) as [n x| |]; try discriminate H. destruct (settable t' x) eqn:E; [|discriminate H].
  destruct (dec_fields dec r fs' n) as [e' vs'| |] eqn:E'; try discriminate H. injection H as <- <-. exists n, x, vs'. auto.
Qed.
Lemma ok_split r fs1 fs2 : forall off e vs, dec_fields dec r (fs1 ++ fs2) off = DOk e vs -> exists n vs', dec_fields dec r fs2 n = DOk e vs'.
Proof.
  induction fs1 as [|[tg t'] fs1 IH]; intros off e vs H; [eauto|]. cbn [app] in H. apply ok_fields in H as (n & x & vs' & _ & _ & H & _). eauto.
Qed.
Lemma no_array e x : settable (TArray e) x = false.
Proof. now destruct x. Qed.
Theorem dec_never t : undecodable t -> forall c r off e v, dec t c r off <> DOk e v.
Proof.
  induction 1 as [tm|e He|e Hu IH|fs1 tg e fs2|fs1 tg t fs2 Hu IH]; intros c r off m v H.
  - cbn in H. destruct (dec_var_array _ _ _ _); discriminate H.
  - cbn in H. destruct e; try discriminate H; [now destruct (He fs)|].
    apply dmap_ok in H as (w & H & _). cbn in H. destruct (dec_var_array _ _ _ _); discriminate H.
  - assert (K : exists w, dec e false r off = DOk m w).
    { cbn in H. destruct e; try discriminate H; apply dmap_ok in H as (w & H & _); eauto. }
    destruct K as [w K]. exact (IH _ _ _ _ _ K).
  - cbn [dec] in H. apply dmap_ok in H as (vs & H & _). apply ok_split in H as (n & vs' & H). apply ok_fields in H as (k & x & vs2 & _ & Hs & _).
    now rewrite no_array in Hs.
  - cbn [dec] in H. apply dmap_ok in H as (vs & H & _). apply ok_split in H as (n & vs' & H). apply ok_fields in H as (k & x & vs2 & H & _).
    exact (IH _ _ _ _ _ H).
Qed.

(** The bytes needed. *)
Lemma fixed_at r off n e d : 0 <= off -> 0 <= n -> peek_fixed r off n = DOk e d -> e = off + n /\ e <= zlen r.
Proof. intros Ho Hn H. unfold peek_fixed, peek in H. destruct (_ || _) eqn:E; [discriminate H|]. injection H as <- _. lia. Qed.
Lemma items_on d ok r (Hd : forall off e x, 0 <= off <= zlen r -> d r off = DOk e x -> off <= e <= zlen r) :
  forall n off e xs, 0 <= off <= zlen r -> dec_items d ok r n off = DOk e xs -> off <= e <= zlen r.
Proof.
  induction n as [|n IH]; intros off e xs Ho H; cbn in H; [injection H as <- _; lia|]. fold (dec_items d ok r) in H.
  destruct (d r off) as [m x| |] eqn:E; try discriminate H. destruct (ok x); [|discriminate H].
  destruct (dec_items d ok r n m) as [e' xs'| |] eqn:E'; try discriminate H. injection H as <- _.
  apply Hd in E; [|assumption]. apply IH in E'; lia.
Qed.
Lemma fixed_on d ok r (Hd : forall off e x, 0 <= off <= zlen r -> d r off = DOk e x -> off <= e <= zlen r) n off e v :
  0 <= off <= zlen r -> dec_fixed_array d ok r off n = DOk e v -> off <= e <= zlen r.
Proof.
  intros Ho H. unfold dec_fixed_array in H. destruct (n <? 0); [injection H as <- _; lia|]. apply dmap_ok in H as (w & H & _).
  eapply items_on; eauto.
Qed.
Lemma var_on d ok r (Hd : forall off e x, 0 <= off <= zlen r -> d r off = DOk e x -> off <= e <= zlen r) off e v :
  0 <= off <= zlen r -> dec_var_array d ok r off = DOk e v -> off + 4 <= e <= zlen r.
Proof.
  intros Ho H. unfold dec_var_array in H. destruct (peek_sint 4 r off) as [m n| |] eqn:E; try discriminate H.
  unfold peek_sint in E. apply dmap_ok in E as (w & E & _). apply fixed_at in E as [-> ?]; [|lia..]. apply fixed_on in H; auto; lia.
Qed.
Lemma compact_on d ok r (Hd : forall off e x, 0 <= off <= zlen r -> d r off = DOk e x -> off <= e <= zlen r) off e v :
  0 <= off <= zlen r -> dec_compact_array d ok r off = DOk e v -> off + 1 <= e <= zlen r.
Proof.
  intros Ho H. unfold dec_compact_array in H. destruct (peek_varint r off) as [m n| |] eqn:E; try discriminate H.
  apply varint_ok in E; [|assumption]. destruct (n =? 0); [injection H as <- _; lia|]. apply fixed_on in H; auto; lia.
Qed.
Lemma least_fields fs : least (TStruct fs) false = fold_right (fun f a => least (snd f) (tCompact (fst f)) + a) 0 fs.
Proof. induction fs as [|[tg t'] fs IH]; [reflexivity|]. cbn [fold_right fst snd]. rewrite <- IH. reflexivity. Qed.
Lemma least_nonneg : forall t c, 0 <= least t c.
Proof.
  induction t as [t Hbase|e IH|e IH|e IH|fs IH|e IH] using ty_ind'; intros c.
  - destruct t; try contradiction; cbn; try lia. destruct c; lia.
  - cbn. destruct c; lia.
  - cbn. lia.
  - cbn. apply IH.
  - change (0 <= least (TStruct fs) false). rewrite least_fields. induction IH as [|f fs Hf _ IHfs]; cbn [fold_right]; [lia|]. specialize (Hf (tCompact (fst f))). lia.
  - cbn. lia.
Qed.
Lemma data16_at r off e v : 0 <= off <= zlen r -> peek_data16 r off = DOk e v -> off + 2 <= e <= zlen r.
Proof.
  intros Ho H. unfold peek_data16 in H. destruct (peek r (off + 2)) as [d|] eqn:E1; [|discriminate H].
  assert (off + 2 <= zlen r) by (unfold peek in E1; destruct (_ || _) eqn:E in E1; [discriminate E1|lia]). cbv zeta in H.
  destruct (swrap 16 (be_get (skipn (Z.to_nat off) d)) <? 0) eqn:En; [injection H as <- _; lia|].
  destruct (peek r (off + 2 + swrap 16 (be_get (skipn (Z.to_nat off) d)))) as [d'|] eqn:E2; [|discriminate H]. injection H as <- _.
  unfold peek in E2. destruct (_ || _) eqn:E in E2; [discriminate E2|]. lia.
Qed.
Theorem dec_least r : forall t c off e v, 0 <= off <= zlen r -> dec t c r off = DOk e v -> off + least t c <= e <= zlen r.
Proof.
  assert (U8 : forall off e x, 0 <= off <= zlen r -> dmap VInt (peek_uint 1 r off) = DOk e x -> off <= e <= zlen r).
  { intros off e x Ho H. apply dmap_ok in H as (w & H & _). apply dmap_ok in H as (w' & H & _). apply fixed_at in H; lia. }
  induction t as [t Hbase|e0 IH|e0 IH|e0 IH|fs IH|e0 IH] using ty_ind'; intros c off e v Ho H.
  - destruct t; try contradiction; cbn [dec least] in *;
      try (apply dmap_ok in H as (w & H & _); unfold peek_bool, peek_sint, peek_uint in H; apply dmap_ok in H as (w' & H & _); apply fixed_at in H; lia).
    all: try (apply dmap_ok in H as (w & H & _)).
    all: try (first [apply varint_ok in H | unfold peek_varint64, peek_varuint64, peek_varint64 in H; try (apply dmap_ok in H as (w' & H & _)); apply varuint_ok in H | apply varuint_ok in H | apply cnbytes_ok in H ]; [lia|assumption]).
    + now apply data16_at in H.
    + now apply data16_at in H.
    + unfold peek_nbytes in H. destruct (peek_sint 4 r off) as [m n| |] eqn:E; try discriminate H.
      unfold peek_sint in E. apply dmap_ok in E as (w' & E & _). apply fixed_at in E as [-> ?]; [|lia..].
      destruct (n <? 0) eqn:En; [injection H as <- _; lia|]. unfold peek in H. destruct (_ || _) eqn:E2 in H; [discriminate H|]. injection H as <- _. lia.
    + destruct c; [apply compact_on in H|apply var_on in H]; auto.
    + apply fixed_at in H; lia.
  - cbn [dec least] in *. assert (Hd : forall off e x, 0 <= off <= zlen r -> dec e0 false r off = DOk e x -> off <= e <= zlen r).
    { intros off' e' x Ho' H'. apply IH in H'; [|assumption]. pose proof (least_nonneg e0 false). lia. }
    destruct c; [apply compact_on in H|apply var_on in H]; auto.
  - cbn [dec least] in *. assert (Hd : forall off e x, 0 <= off <= zlen r -> dec e0 false r off = DOk e x -> off <= e <= zlen r).
    { intros off' e' x Ho' H'. apply IH in H'; [|assumption]. pose proof (least_nonneg e0 false). lia. }
    apply compact_on in H; auto.
  - cbn [dec least] in *. destruct e0; try discriminate H; apply dmap_ok in H as (w & H & _); now apply IH in H.
  - change (least (TStruct fs) c) with (least (TStruct fs) false). rewrite least_fields. cbn [dec] in H. apply dmap_ok in H as (vs & H & _). revert off vs Ho H.
    induction IH as [|[tg t'] fs Ht _ IHfs]; intros off vs Ho H; apply ok_fields in H.
    + destruct H as [-> _]. cbn. lia.
    + destruct H as (n & x & vs' & H & _ & H' & _). cbn [fold_right fst snd] in *. apply Ht in H; [|assumption].
      pose proof (least_nonneg t' (tCompact tg)). apply IHfs in H'; lia.
  - cbn [dec] in H. destruct (dec_var_array _ _ _ _); discriminate H.
Qed.

(** Everything else can be decoded from as few bytes. *)
Lemma good_same {A} (d : bytes -> Z -> dres A) bs a : good d bs a -> forall d', (forall r o, d' r o = d r o) -> good d' bs a.
Proof. intros G d' H. eapply good_ext; eauto. Qed.
Lemma base_small t c : (match t with TSlice _ | TArray _ | TPtr _ | TStruct _ | TMsgSet _ | TCompactBytes => False | _ => True end) ->
  exists bs v, zlen bs = least t c /\ good (dec t c) bs v /\ settable t v = true.
Proof.
  intros Hb. assert (G : forall v bs, agrees t false false = true -> wt t v = true -> enc t false false v = Some bs -> zlen bs = least t c -> settable t v = true ->
    (forall r o, dec t c r o = dec t false r o) -> exists bs v, zlen bs = least t c /\ good (dec t c) bs v /\ settable t v = true).
  { intros v bs Ha Hw He Hl Hs Hc. destruct (enc_dec_good t false false v Ha Hw) as (bs' & He' & Hg). rewrite He in He'. injection He' as <-.
    exists bs, v. split; [assumption|]. split; [|assumption]. eapply good_same; eauto. }
  destruct t; try contradiction;
    first [eapply (G (VBool false)); [reflexivity..|intros; reflexivity] | eapply (G (VInt 0)); [reflexivity..|intros; reflexivity]
          | eapply (G (VStr [])); [reflexivity..|intros; reflexivity] | eapply (G (VNStr None)); [reflexivity..|intros; reflexivity]
          | eapply (G (VBytes None)); [reflexivity..|intros; reflexivity] | eapply (G (VUuid (repeat 0 16))); [reflexivity..|intros; reflexivity]].
Qed.
Lemma empty_var d ok : good (fun r o => dec_var_array d ok r o) (enc_i32 0) (VSlice (Some [])).
Proof.
  destruct (good_var_array d ok (fun _ => None) []) as (bs & E & G); [reflexivity|constructor|].
  change (swrap 32 (zlen (@nil val))) with 0 in E. cbn [oapp obind enc_items] in E. rewrite app_nil_r in E. injection E as <-. exact G.
Qed.
Lemma empty_compact d ok : good (fun r o => dec_compact_array d ok r o) (enc_varint 1) (VSlice (Some [])).
Proof.
  destruct (good_compact_array d ok (fun _ => None) []) as (bs & E & G); [reflexivity|constructor|].
  change (swrap 32 (swrap 32 (zlen (@nil val)) + 1)) with 1 in E. cbn [oapp obind enc_items] in E. rewrite app_nil_r in E. injection E as <-. exact G.
Qed.
Lemma empty_small e (c : bool) : exists bs v, zlen bs = least (TSlice e) c /\ good (dec (TSlice e) c) bs v /\ settable (TSlice e) v = true.
Proof.
  destruct c.
  - exists (enc_varint 1), (VSlice (Some [])). split; [reflexivity|]. split; [apply empty_compact|reflexivity].
  - exists (enc_i32 0), (VSlice (Some [])). split; [reflexivity|]. split; [apply empty_var|reflexivity].
Qed.
Lemma small : forall t, undecodable t \/ forall c, exists bs v, zlen bs = least t c /\ good (dec t c) bs v /\ ((forall e, t <> TArray e) -> settable t v = true).
Proof.
  induction t as [t Hbase|e IH|e IH|e IH|fs IH|e IH] using ty_ind'.
  - right. intros c. destruct (match t with TCompactBytes => true | _ => false end) eqn:E.
    + destruct t; try discriminate E. destruct (empty_small TUint8 c) as (bs & v & H1 & H2 & H3). exists bs, v.
      split; [exact H1|]. split; [exact H2|]. intros _. exact H3.
    + destruct (base_small t c) as (bs & v & H1 & H2 & H3); [destruct t; try contradiction; try exact I; discriminate E|]. exists bs, v. auto.
  - right. intros c. destruct (empty_small e c) as (bs & v & H1 & H2 & H3). exists bs, v. auto.
  - right. intros c. exists (enc_varint 1), (VSlice (Some [])). split; [reflexivity|]. split; [apply empty_compact|]. intros H. now destruct (H e).
  - destruct e as [| | | | | | | | | | | | | | | | | | | | | | | |e|e|e|fs|tm]; try (left; apply un_ptr; discriminate).
    destruct IH as [IH|IH]; [left; now apply un_to|]. right. intros c. destruct (IH false) as (bs & v & H1 & H2 & _).
    exists bs, (VPtr (Some v)). split; [exact H1|]. split; [|reflexivity]. apply (good_map (fun v => VPtr (Some v))). exact H2.
  - assert (G : undecodable (TStruct fs) \/ exists bs vs, zlen bs = least (TStruct fs) false /\ good (fun r o => dec_fields dec r fs o) bs vs).
    { induction IH as [|[tg t'] fs Ht _ IHfs].
      - right. exists [], []. split; [reflexivity|]. apply good_ret.
      - destruct IHfs as [H|(bs & vs & H1 & H2)].
        { left. inversion H; subst; [apply (un_array ((tg, t') :: fs1))|apply (un_field ((tg, t') :: fs1)); assumption]. }
        cbn [snd] in Ht. destruct Ht as [Ht|Ht]; [left; now apply (un_field [])|].
        destruct (match t' with TArray _ => true | _ => false end) eqn:E; [left; destruct t'; try discriminate E; apply (un_array [])|].
        destruct (Ht (tCompact tg)) as (b & v & H3 & H4 & H5). assert (Hs : settable t' v = true) by (apply H5; intros e ->; discriminate E).
        right. exists (b ++ bs), (v :: vs). split; [rewrite zlen_app, H1, H3; reflexivity|].
        eapply good_ext.
        2:{ apply (good_bind (dec t' (tCompact tg)) (fun x r n => if settable t' x then dmap (cons x) (dec_fields dec r fs n) else DPanic) b bs v (v :: vs)); [exact H4|].
            rewrite Hs. apply (good_map (cons v)). exact H2. }
        intros r o. cbn [dec_fields]. fold (dec_fields dec r).
        destruct (dec t' (tCompact tg) r o) as [n y| |]; cbn [dbind]; [|reflexivity|reflexivity].
        destruct (settable t' y); [|reflexivity]. now destruct (dec_fields dec r fs n). }
    destruct G as [G|(bs & vs & H1 & H2)]; [now left|]. right. intros c. exists bs, (VStruct vs). split; [exact H1|]. split; [|reflexivity].
    apply (good_map VStruct). exact H2.
  - left. constructor.
Qed.
Theorem decodable t : (exists r e v, peekObject r 0 t = DOk e v) <-> ~ undecodable t /\ least t false <= 4096.
Proof.
  split.
  - intros (r & e & v & H). split; [intros U; exact (dec_never t U _ _ _ _ _ H)|]. unfold peekObject in H. rewrite <- dec_window in H.
    apply dec_least in H; [|pose proof (zlen_nonneg (window r)); lia]. rewrite zlen_window in H. unfold bufsize in H. lia.
  - intros [Hu Hl]. destruct (small t) as [U|S]; [contradiction|]. destruct (S false) as (bs & v & H1 & H2 & _). exists bs, (zlen bs), v.
    destruct (H2 []) as [H _]. specialize (H []). rewrite app_nil_r in H. apply H. change (zlen (@nil Z)) with 0. unfold bufsize. lia.
Qed.

(** ** One writes what the other does not read *)
Lemma one_field r off tg t e v : peekObject r off (TStruct [(tg, t)]) = DOk e (VStruct [v]) -> dec t (tCompact tg) r off = DOk e v.
Proof.
  intros H. unfold peekObject in H. cbn [dec] in H. apply dmap_ok in H as (vs & H & E). injection E as <-.
  apply ok_fields in H as (n & x & vs' & H & _ & H' & E). apply ok_fields in H' as [-> ->]. injection E as ->. exact H.
Qed.
Lemma fixed_here (pre bs rest : bytes) n d : 0 <= n -> peek_fixed (pre ++ bs ++ rest) (zlen pre) n = DOk (zlen pre + zlen bs) d -> zlen bs = n /\ d = bs.
Proof.
  intros Hn H. unfold peek_fixed in H. destruct (peek (pre ++ bs ++ rest) (zlen pre + n)) as [p|] eqn:E; [|discriminate H].
  injection H as H1 <-. assert (Hl : zlen bs = n) by lia. split; [assumption|]. unfold peek in E.
  destruct (_ || _) eqn:Eb in E; [discriminate E|]. injection E as <-.
  rewrite app_assoc, firstn_app_exact; [apply skipn_pre|]. rewrite app_length. unfold zlen in *. lia.
Qed.
Lemma form4 l : leb_form l -> zlen l = 4 -> exists a b c d, l = [a; b; c; d] /\ 128 <= a < 256 /\ 128 <= b < 256 /\ 128 <= c < 256 /\ 0 <= d < 128.
Proof.
  intros H Hl. destruct l as [|a [|b [|c [|d [|e l]]]]]; try discriminate Hl; [|exfalso; rewrite !zlen_cons in Hl; pose proof (zlen_nonneg l); lia].
  cbn in H. exists a, b, c, d. tauto.
Qed.
Lemma form8 l : leb_form l -> zlen l = 8 -> exists a b c d e f g h, l = [a; b; c; d; e; f; g; h] /\ 128 <= a < 256 /\ 128 <= b < 256 /\ 128 <= c < 256 /\ 128 <= d < 256 /\
  128 <= e < 256 /\ 128 <= f < 256 /\ 128 <= g < 256 /\ 0 <= h < 128.
Proof.
  intros H Hl. destruct l as [|a [|b [|c [|d [|e [|f [|g [|h [|i l]]]]]]]]]; try discriminate Hl; [|exfalso; rewrite !zlen_cons in Hl; pose proof (zlen_nonneg l); lia].
  cbn in H. exists a, b, c, d, e, f, g, h. tauto.
Qed.
Lemma lowbits b : 128 <= b < 256 -> b mod 128 = b - 128. Proof. lia. Qed.
Lemma highbit b : 0 <= b < 128 -> b mod 128 = b. Proof. lia. Qed.
Lemma leb4 v l : leb128 v l -> zlen l = 4 -> exists a b c d, 0 <= a < 128 /\ 0 <= b < 128 /\ 0 <= c < 128 /\ 0 <= d < 128 /\
  v = a + 128 * (b + 128 * (c + 128 * d)) /\ be_get l = (((a + 128) * 256 + (b + 128)) * 256 + (c + 128)) * 256 + d.
Proof.
  intros (H1 & H2 & _) Hl. destruct (form4 l H1 Hl) as (a & b & c & d & -> & Ha & Hb & Hc & Hd).
  exists (a - 128), (b - 128), (c - 128), d. do 4 (split; [lia|]). split.
  - rewrite <- H2. cbn [leb_value]. rewrite !lowbits, highbit by assumption. lia.
  - unfold be_get. cbn [fold_left]. lia.
Qed.
Lemma leb8 v l : leb128 v l -> zlen l = 8 -> exists a b c d e f g h, 0 <= a < 128 /\ 0 <= b < 128 /\ 0 <= c < 128 /\ 0 <= d < 128 /\
  0 <= e < 128 /\ 0 <= f < 128 /\ 0 <= g < 128 /\ 0 <= h < 128 /\
  v = a + 128 * (b + 128 * (c + 128 * (d + 128 * (e + 128 * (f + 128 * (g + 128 * h)))))) /\
  be_get l = (((((((a + 128) * 256 + (b + 128)) * 256 + (c + 128)) * 256 + (d + 128)) * 256 + (e + 128)) * 256 + (f + 128)) * 256 + (g + 128)) * 256 + h.
Proof.
  intros (H1 & H2 & _) Hl. destruct (form8 l H1 Hl) as (a & b & c & d & e & f & g & h & -> & Ha & Hb & Hc & Hd & He & Hf & Hg & Hh).
  exists (a - 128), (b - 128), (c - 128), (d - 128), (e - 128), (f - 128), (g - 128), h. do 8 (split; [lia|]). split.
  - rewrite <- H2. cbn [leb_value]. rewrite !lowbits, highbit by assumption. lia.
  - unfold be_get. cbn [fold_left]. lia.
Qed.
Lemma swrap_high w z : 0 < w -> 2 ^ (w - 1) <= z < 2 ^ w -> swrap w z = z - 2 ^ w.
Proof.
  intros Hw Hz. assert (E : 2 ^ w = 2 * 2 ^ (w - 1)) by (replace w with (1 + (w - 1)) at 1 by lia; now rewrite Z.pow_add_r by lia).
  rewrite <- (swrap_id w (z - 2 ^ w)) by lia. unfold swrap.
  replace (z + 2 ^ (w - 1)) with (z - 2 ^ w + 2 ^ (w - 1) + 1 * 2 ^ w) by lia. now rewrite Z_mod_plus_full.
Qed.
Lemma no_int32 z l : leb128 (zigzag_spec z) l -> zlen l = 4 -> swrap 32 (be_get l) <> z.
Proof.
  intros H Hl E. destruct (leb4 _ _ H Hl) as (a & b & c & d & Ha & Hb & Hc & Hd & Hv & Hg). rewrite Hg in E.
  rewrite swrap_high in E by lia. unfold zigzag_spec in Hv. change (2 ^ 32) with 4294967296 in E. clear - Ha Hb Hc Hd Hv E.
  destruct (0 <=? z) eqn:Ez; [lia|]. assert (E2 : a + 128 * (b + 128 * (c + 128 * d)) = -2 * ((a + 128 - 256) * 2 ^ 24 + (b + 128) * 2 ^ 16 + (c + 128) * 2 ^ 8 + d) - 1) by lia.
  clear - Ha Hb Hc Hd E2. lia.
Qed.
Lemma no_uint32 z l : leb128 z l -> zlen l = 4 -> be_get l <> z.
Proof.
  intros H Hl E. destruct (leb4 _ _ H Hl) as (a & b & c & d & Ha & Hb & Hc & Hd & Hv & Hg). clear - Ha Hb Hc Hd Hv Hg E. lia.
Qed.
Lemma knapsack a b c d e f g h : 0 <= a < 128 -> 0 <= b < 128 -> 0 <= c < 128 -> 0 <= d < 128 -> 0 <= e < 128 -> 0 <= f < 128 -> 0 <= g < 128 -> 0 <= h < 128 ->
  (2 ^ 57 + 1) * a + (2 ^ 49 + 2 ^ 7) * b + (2 ^ 41 + 2 ^ 14) * c + (2 ^ 33 + 2 ^ 21) * d + (2 ^ 25 + 2 ^ 28) * e + (2 ^ 17 + 2 ^ 35) * f + (2 ^ 9 + 2 ^ 42) * g + (2 + 2 ^ 49) * h
    <> 2 ^ 64 - 2 ^ 56 - 2 ^ 48 - 2 ^ 40 - 2 ^ 32 - 2 ^ 24 - 2 ^ 16 - 1.
Proof.
  intros Ha Hb Hc Hd He Hf Hg Hh E. cbn [Z.pow Z.pow_pos Pos.iter Z.mul Pos.mul] in E.
  assert (a = 127) as ->.
  { assert (exists k, a = 2 * k + 1) as [k ->] by (exists ((a - 1) / 2); lia). lia. }
  assert (h = 0 \/ h = 64) as [-> | ->] by lia; [|lia].
  assert (b = 127) as -> by lia.
  assert (g = 0 \/ g = 32) as [-> | ->] by lia; lia.
Qed.
Lemma no_int64 z l : leb128 (zigzag_spec z) l -> zlen l = 8 -> swrap 64 (be_get l) <> z.
Proof.
  intros H Hl E. destruct (leb8 _ _ H Hl) as (a & b & c & d & e & f & g & h & Ha & Hb & Hc & Hd & He & Hf & Hg & Hh & Hv & Hget). rewrite Hget in E.
  rewrite swrap_high in E by lia. unfold zigzag_spec in Hv. destruct (0 <=? z) eqn:Ez; [lia|].
  apply (knapsack a b c d e f g h Ha Hb Hc Hd He Hf Hg Hh). clear - Hv E. lia.
Qed.
Lemma no_uint64 z l : leb128 z l -> zlen l = 8 -> be_get l <> z.
Proof.
  intros H Hl E. destruct (leb8 _ _ H Hl) as (a & b & c & d & e & f & g & h & Ha & Hb & Hc & Hd & He & Hf & Hg & Hh & Hv & Hget).
  clear - Ha Hb Hc Hd He Hf Hg Hh Hv Hget E. lia.
Qed.
Lemma sint_here (pre bs rest : bytes) n z : 0 < n -> dmap VInt (peek_sint n (pre ++ bs ++ rest) (zlen pre)) = DOk (zlen pre + zlen bs) (VInt z) ->
  zlen bs = n /\ swrap (8 * n) (be_get bs) = z.
Proof.
  intros Hn H. apply dmap_ok in H as (w & H & E). injection E as <-. apply dmap_ok in H as (d & H & ->). apply fixed_here in H as [? ->]; [auto|lia].
Qed.
Lemma uint_here (pre bs rest : bytes) n z : 0 < n -> dmap VInt (peek_uint n (pre ++ bs ++ rest) (zlen pre)) = DOk (zlen pre + zlen bs) (VInt z) ->
  zlen bs = n /\ be_get bs = z.
Proof.
  intros Hn H. apply dmap_ok in H as (w & H & E). injection E as <-. apply dmap_ok in H as (d & H & ->). apply fixed_here in H as [? ->]; [auto|lia].
Qed.
Lemma misread_field t v bs : enc t false true v = Some bs ->
  (forall pre rest, dec t true (pre ++ bs ++ rest) (zlen pre) <> DOk (zlen pre + zlen bs) v) -> misread (TStruct [(FT false true, t)]) (VStruct [v]).
Proof.
  intros He Hd. exists bs. split.
  - unfold encodeObject. cbn [enc enc_fields tNullable tCompact]. rewrite He. cbn [oapp obind]. now rewrite app_nil_r.
  - intros pre rest H. apply one_field in H. exact (Hd pre rest H).
Qed.
Lemma data16_here (pre bs rest s : bytes) l : leb128 (zigzag_spec (zlen s + 1)) l -> bs = l ++ s ->
  dec TString true (pre ++ bs ++ rest) (zlen pre) <> DOk (zlen pre + zlen bs) (VStr s).
Proof.
  intros (Hf & Hv & Hm) -> H. cbn [dec] in H. apply dmap_ok in H as (o & H & E). injection E as E. rewrite zlen_app in H.
  pose proof (zlen_nonneg s) as Hs. unfold zigzag_spec in *. replace (0 <=? zlen s + 1) with true in * by lia.
  unfold peek_data16 in H. destruct (peek ((pre ++ (l ++ s) ++ rest)) (zlen pre + 2)) as [d|] eqn:Ep; [|discriminate H].
  set (count := swrap 16 (be_get (skipn (Z.to_nat (zlen pre)) d))) in H. cbv zeta in H.
  assert (Hl : 1 <= zlen l) by (destruct l; [contradiction Hf|rewrite zlen_cons; pose proof (zlen_nonneg l); lia]).
  destruct (count <? 0) eqn:Ec.
  - injection H as H1 <-. subst s. change (zlen (@nil Z)) with 0 in *. destruct Hm as [Hm|Hm]; [lia|].
    replace (zlen l) with 2 in Hm by lia. change (128 ^ (2 - 1)) with 128 in Hm. lia.
  - destruct (peek ((pre ++ (l ++ s) ++ rest)) (zlen pre + 2 + count)) as [d'|] eqn:Ep'; [|discriminate H]. injection H as H1 <-.
    assert (Hz : zlen s = count).
    { rewrite E. unfold peek in Ep'. destruct (_ || _) eqn:Eb in Ep'; [discriminate Ep'|]. injection Ep' as <-.
      unfold zlen in *. rewrite skipn_length, firstn_length. lia. }
    assert (Hl2 : zlen l = 2) by lia.
    destruct l as [|a [|b [|c l]]]; try discriminate Hl2; [|rewrite !zlen_cons in Hl2; pose proof (zlen_nonneg l); lia].
    cbn in Hf. assert (Hd : skipn (Z.to_nat (zlen pre)) d = [a; b]).
    { unfold peek in Ep. destruct (_ || _) eqn:Eb in Ep; [discriminate Ep|]. injection Ep as <-.
      assert (Ea : pre ++ a :: b :: s ++ rest = (pre ++ [a; b]) ++ (s ++ rest)) by (rewrite <- app_assoc; reflexivity).
      cbn [app]. rewrite Ea, (firstn_app_exact (pre ++ [a; b])); [apply skipn_pre|]. rewrite app_length. unfold zlen. cbn [Datatypes.length]. lia. }
    unfold count in Ec. rewrite Hd in Ec. unfold be_get in Ec. cbn [fold_left] in Ec. rewrite swrap_high in Ec by (change (2 ^ (16 - 1)) with 32768; change (2 ^ 16) with 65536; lia).
    change (2 ^ 16) with 65536 in Ec. lia.
Qed.
Theorem compact_tag t v : In t [TInt32; TInt; TInt64; TUint32; TUint; TUint64; TString] -> wt t v = true ->
  misread (TStruct [(FT false true, t)]) (VStruct [v]).
Proof.
  intros Ht Hw. cbn in Ht.
  assert (S32 : forall z, in_s 32 z = true -> exists l, enc_varint (swrap 32 z) = l /\ leb128 (zigzag_spec z) l).
  { intros z Hz. apply in_s_iff in Hz. change (2 ^ (32 - 1)) with (2 ^ 31) in Hz. destruct (varint_shape z Hz) as (l & E1 & E2 & _).
    unfold encodeObject in E1. cbn [enc] in E1. injection E1 as E1. rewrite swrap_id by (change (2 ^ (32 - 1)) with (2 ^ 31); lia). eauto. }
  assert (S64 : forall z, in_s 64 z = true -> exists l, enc_varint64 z = l /\ leb128 (zigzag_spec z) l).
  { intros z Hz. apply in_s_iff in Hz. change (2 ^ (64 - 1)) with (2 ^ 63) in Hz. destruct (varint64_shape z Hz) as (l & E1 & E2 & _).
    unfold encodeObject in E1. cbn [enc] in E1. injection E1 as E1. eauto. }
  assert (U32 : forall z, in_u 32 z = true -> exists l, enc_varuint z = l /\ leb128 z l).
  { intros z Hz. apply in_u_iff in Hz. eexists. split; [reflexivity|]. now apply enc_varuint_leb. }
  assert (U64 : forall z, in_u 64 z = true -> exists l, enc_varuint64 z = l /\ leb128 z l).
  { intros z Hz. apply in_u_iff in Hz. destruct (varuint64_shape z Hz) as (l & E1 & E2 & _). unfold encodeObject in E1. cbn [enc] in E1. injection E1 as E1. eauto. }
  repeat destruct Ht as [<-|Ht]; try contradiction; cbn [wt] in Hw; destruct v as [|z|s| | | | | | | |]; try discriminate Hw.
  - destruct (S32 z Hw) as (l & E & L). apply (misread_field _ _ l); [cbn [enc]; now rewrite E|]. intros pre rest H. apply sint_here in H as [H1 H2]; [|lia]. exact (no_int32 z l L H1 H2).
  - destruct (S32 z Hw) as (l & E & L). apply (misread_field _ _ l); [cbn [enc]; now rewrite E|]. intros pre rest H. apply sint_here in H as [H1 H2]; [|lia]. exact (no_int32 z l L H1 H2).
  - destruct (S64 z Hw) as (l & E & L). apply (misread_field _ _ l); [cbn [enc]; now rewrite E|]. intros pre rest H. apply sint_here in H as [H1 H2]; [|lia]. exact (no_int64 z l L H1 H2).
  - destruct (U32 z Hw) as (l & E & L). apply (misread_field _ _ l); [cbn [enc]; now rewrite E|]. intros pre rest H. apply uint_here in H as [H1 H2]; [|lia]. exact (no_uint32 z l L H1 H2).
  - destruct (U32 z Hw) as (l & E & L). apply (misread_field _ _ l); [cbn [enc]; now rewrite E|]. intros pre rest H. apply uint_here in H as [H1 H2]; [|lia]. exact (no_uint32 z l L H1 H2).
  - destruct (U64 z Hw) as (l & E & L). apply (misread_field _ _ l); [cbn [enc]; now rewrite E|]. intros pre rest H. apply uint_here in H as [H1 H2]; [|lia]. exact (no_uint64 z l L H1 H2).
  - pose proof (zlen_nonneg s). change (2 ^ 15) with 32768 in Hw. destruct (varint_shape (zlen s + 1)) as (l & E1 & E2 & _); [lia|].
    unfold encodeObject in E1. cbn [enc] in E1. injection E1 as E1.
    apply (misread_field _ _ (l ++ s)); [cbn [enc]; unfold enc_cnstr; rewrite swrap_id by (change (2 ^ (32 - 1)) with 2147483648; lia); now rewrite E1|].
    intros pre rest. eapply data16_here; eauto.
Qed.

Lemma uint8_items r : forall n off e xs, dec_items (fun r o => dmap VInt (peek_uint 1 r o)) (settable TUint8) r n off = DOk e xs -> e = off + Z.of_nat n /\ Datatypes.length xs = n.
Proof.
  induction n as [|n IH]; intros off e xs H; cbn in H; [injection H as <- <-; split; [lia|reflexivity]|].
  destruct (peek_uint 1 r off) as [m z| |] eqn:E; try discriminate H. cbn in H. fold (dec_items (fun r o => dmap VInt (peek_uint 1 r o)) (settable TUint8) r) in H.
  destruct (dec_items _ _ r n m) as [e' xs'| |] eqn:E'; try discriminate H. injection H as <- <-. apply IH in E' as [-> <-].
  assert (m = off + 1) as ->.
  { unfold peek_uint, peek_fixed in E. destruct (peek r (off + 1)); [|discriminate E]. now injection E as <- _. }
  cbn [Datatypes.length]. split; lia.
Qed.
Theorem compact_bytes o : wt TCompactBytes (VBytes o) = true ->
  exists bs, encodeObject TCompactBytes (VBytes o) = Some bs /\
    forall pre rest v, peekObject (pre ++ bs ++ rest) (zlen pre) TCompactBytes = DOk (zlen pre + zlen bs) v ->
      exists s, o = Some s /\ v <> VSlice (Some (map VInt s)) /\ v <> VBytes (Some s).
Proof.
  intros Hw. cbn [wt] in Hw. unfold encodeObject. cbn [enc orb]. eexists. split; [reflexivity|]. intros pre rest v H.
  unfold peekObject in H. cbn [dec] in H. unfold dec_var_array in H.
  set (bs := enc_cnstr o) in *. destruct (peek_sint 4 (pre ++ bs ++ rest) (zlen pre)) as [m n| |] eqn:E; try discriminate H.
  unfold peek_sint in E. apply dmap_ok in E as (d & E & ->). pose proof (zlen_nonneg pre) as Hp. pose proof E as E0. apply fixed_at in E0 as [-> Hr]; [|lia..].
  unfold dec_fixed_array in H. set (count := swrap (8 * 4) (be_get d)) in *.
  assert (Hend : zlen pre + 4 <= zlen pre + zlen bs /\ (v = VNil \/ exists xs, v = VSlice (Some xs) /\ zlen bs = 4 + zlen xs /\ zlen xs = count)).
  { destruct (count <? 0) eqn:Ec; [injection H as H1 <-; split; [lia|auto]|]. apply dmap_ok in H as (xs & H & ->). apply uint8_items in H as [H Hx].
    split; [lia|]. right. exists xs. split; [reflexivity|]. assert (Hxs : zlen xs = count) by (unfold zlen; rewrite Hx; lia). split; [lia|assumption]. }
  destruct Hend as [Hlen Hend]. destruct o as [s|]; [|exfalso; change (zlen bs) with 1 in Hlen; lia].
  exists s. split; [reflexivity|]. split; [|destruct Hend as [->|(xs & -> & _)]; discriminate].
  destruct Hend as [->|(xs & -> & H1 & H2)]; [discriminate|]. intros Exs. injection Exs as ->. rewrite zlen_map in H1, H2.
  pose proof (zlen_nonneg s) as Hs. change (2 ^ 31) with 2147483648 in Hw.
  destruct (varint_shape (zlen s + 1)) as (l & E1 & E2 & _); [lia|]. unfold encodeObject in E1. cbn [enc] in E1. injection E1 as E1.
  assert (Ebs : bs = l ++ s) by (unfold bs, enc_cnstr; rewrite swrap_id by (change (2 ^ (32 - 1)) with 2147483648; lia); now rewrite E1).
  rewrite Ebs, zlen_app in H1. assert (Hl : zlen l = 4) by lia.
  rewrite Ebs, <- app_assoc in E. rewrite <- Hl in E at 2.
  apply fixed_here in E as [_ ->]; [|lia]. destruct (leb4 _ _ E2 Hl) as (a & b & c & d & Ha & Hb & Hc & Hd & _ & Hg).
  unfold count in H2. rewrite Hg in H2. change (8 * 4) with 32 in H2. rewrite swrap_high in H2 by lia. lia.
Qed.

(** ** Formats *)
Theorem int_cut z : exists bs, encodeObject TInt (VInt z) = Some bs /\ encodeObject TUint (VInt z) = Some bs /\ zlen bs = 4 /\
  forall pre rest, zlen pre + 4 <= 4096 ->
    peekObject (pre ++ bs ++ rest) (zlen pre) TInt = DOk (zlen pre + 4) (VInt (swrap 32 z)) /\
    peekObject (pre ++ bs ++ rest) (zlen pre) TUint = DOk (zlen pre + 4) (VInt (uwrap 32 z)).
Proof.
  exists (enc_i32 z). do 2 (split; [reflexivity|]). split; [reflexivity|]. intros pre rest Hp.
  assert (L : zlen (enc_i32 z) = 4) by reflexivity. split.
  - pose proof (swrap_range 32 z ltac:(lia)) as Hr. cbn in Hr.
    destruct (good_map VInt _ _ _ (good_sint 4 (swrap 32 z) (enc_i32 z) ltac:(lia) ltac:(cbn; lia) ltac:(unfold enc_i32; now rewrite <- (uwrap_swrap 32 z ltac:(lia)))) pre) as [G _].
    rewrite L in G. apply G. exact Hp.
  - pose proof (uwrap_range 32 z ltac:(lia)) as Hr. cbn in Hr.
    destruct (good_map VInt _ _ _ (good_uint 4 (uwrap 32 z) (enc_i32 z) ltac:(lia) ltac:(cbn; lia) ltac:(unfold enc_i32; change (8 * 4) with 32; rewrite (uwrap_id 32 (uwrap 32 z)); [reflexivity|lia|exact (uwrap_range 32 z ltac:(lia))])) pre) as [G _].
    rewrite L in G. apply G. exact Hp.
Qed.
Theorem pointer_format :
  encodeObject (TPtr TString) (VPtr None) = Some (w_int16 (-1)) /\
  (forall s, zlen s <= 32767 -> encodeObject (TPtr TString) (VPtr (Some (VStr s))) = Some (w_int16 (zlen s) ++ s)) /\
  (encodeObject (TStruct [(FT false true, TPtr TString)]) (VStruct [VPtr None]) = Some [0] /\
   forall s, encodeObject (TStruct [(FT false true, TPtr TString)]) (VStruct [VPtr (Some (VStr s))]) = None) /\
  (forall fs v, encodeObject (TPtr (TStruct fs)) (VPtr (Some v)) = encodeObject (TStruct fs) v) /\
  forall e n c, e <> TString -> enc (TPtr e) n c (VPtr None) = None.
Proof.
  split; [reflexivity|]. split.
  - intros s Hs. unfold encodeObject. cbn [enc]. now rewrite enc_nstr_w.
  - split; [split; reflexivity|]. split; [reflexivity|]. intros e n c He. cbn [enc]. destruct e; try reflexivity. contradiction.
Qed.
Theorem array_as_slice e r off n v : v <> VNil ->
  (peekObject r off (TArray e) = DOk n v <-> peekObject r off (TStruct [(FT false true, TSlice e)]) = DOk n (VStruct [v])).
Proof.
  intros Hv. split.
  - intros H. unfold peekObject in *. cbn [dec] in H. cbn [dec dec_fields tCompact]. rewrite H.
    assert (Hs : settable (TSlice e) v = true) by (destruct v; try reflexivity; contradiction). rewrite Hs. reflexivity.
  - intros H. apply one_field in H. exact H.
Qed.

(** ** Examples *)
Definition ex_mixed : ty := TStruct [(plain, TInt32); (FT false true, TPtr TString); (plain, TSlice (TPtr (TStruct [(plain, TString)])))].
Lemma trouble_demo : (exists v, typed ex_mixed v /\ trouble ex_mixed false false v) /\ (exists v, typed ex_mixed v /\ encodeObject ex_mixed v <> None).
Proof.
  split.
  - exists (VStruct [VInt 7; VPtr None; VSlice (Some [VPtr (Some (VStruct [VStr [104; 105]])); VPtr None])]). split.
    + cbn. repeat first [eexists; split; [reflexivity|] | split | right; eexists; split; [reflexivity|] | left; reflexivity | constructor | exact I | eexists; reflexivity].
    + apply (tr_field [(plain, TInt32); (FT false true, TPtr TString)] plain _ [] [VInt 7; VPtr None] _ []); [reflexivity|].
      eapply tr_elem; [right; left; reflexivity|]. apply tr_nil. discriminate.
  - exists (VStruct [VInt 7; VPtr None; VSlice (Some [VPtr (Some (VStruct [VStr [104; 105]]))])]). split; [|vm_compute; discriminate].
    cbn. repeat first [eexists; split; [reflexivity|] | split | right; eexists; split; [reflexivity|] | left; reflexivity | constructor | exact I | eexists; reflexivity].
Qed.
Definition ex_matrix : ty := TStruct [(plain, TInt32); (plain, TArray TInt16)].
Definition ex_holds : ty := TStruct [(plain, TSlice ex_matrix); (plain, TPtr (TStruct [(FT true true, TString)]))].
Lemma decodable_demo : undecodable ex_matrix /\ (~ undecodable ex_holds /\ least ex_holds false <= 4096) /\ peekObject [4; 0; 9] 0 (TArray TInt16) = DOk 3 (VSlice (Some [VInt 9])).
Proof.
  split; [apply (un_array [(plain, TInt32)])|]. split; [|reflexivity].
  apply decodable. exists [0; 0; 0; 0; 0; 1; 65], 7. eexists. vm_compute. reflexivity.
Qed.
