(** * OddProofs: well-formed requests are treated like the plain ones *)
From Verif Require Export OddSpec AcceptProofs.
From stdpp Require Import gmap list.
From Coq Require Import ZifyBool ZifyNat.
Open Scope Z_scope.
Open Scope list_scope.

(** ** Read as the same value *)
Definition alike (t : ty) (b b' : bytes) : Prop :=
  exists v, good (dec t false) b v /\ good (dec t false) b' v /\ settable t v = true.

(** Everything of type [t] is read like something written by [w]. *)
Definition norm {A} (t : ty) (w : A -> bytes) (l : A -> bool) : Prop :=
  forall b, parses (shape_of t) b -> all_bytes b = true -> zlen b <= 4096 ->
  exists x, l x = true /\ reworded (shape_of t) b (w x) /\ alike t b (w x) /\ zlen (w x) = zlen b.
Definition normf {A} (ts : list ty) (w : A -> bytes) (l : A -> bool) : Prop :=
  forall bs, Forall2 parses (map shape_of ts) bs -> all_bytes (concat bs) = true -> zlen (concat bs) <= 4096 ->
  exists x bs', w x = concat bs' /\ l x = true /\ Forall3 reworded (map shape_of ts) bs bs' /\
    zlen (w x) = zlen (concat bs) /\
    exists vs, good (fun r o => dec_fields dec r (map (fun t => (plain, t)) ts) o) (concat bs) vs /\
               good (fun r o => dec_fields dec r (map (fun t => (plain, t)) ts) o) (concat bs') vs.

Lemma norm_map {A B} t (w : A -> bytes) l (f : A -> B) w' l' : norm t w l ->
  (forall x, w' (f x) = w x) -> (forall x, l x = true -> l' (f x) = true) -> norm t w' l'.
Proof.
  intros H Hw Hl b Hp Hb Hz. destruct (H b Hp Hb Hz) as (x & Lx & R & E & Z). exists (f x). rewrite Hw. auto.
Qed.

Lemma sint_plain n b : zlen b = n -> 0 < n -> all_bytes b = true ->
  exists z, w_be (Z.to_nat n) z = b /\ - 2 ^ (8 * n - 1) <= z < 2 ^ (8 * n - 1).
Proof.
  intros Hz Hn Hb. exists (swrap (8 * n) (be_get b)). split.
  - replace (8 * n) with (8 * Z.of_nat (Z.to_nat n)) by lia. rewrite w_be_swrap. apply w_be_get; [assumption|]. unfold zlen in Hz. lia.
  - apply swrap_range. lia.
Qed.

Lemma norm_int (t : ty) n : (t = TInt16 /\ n = 2) \/ (t = TInt32 /\ n = 4) \/ (t = TInt64 /\ n = 8) ->
  norm t (w_be (Z.to_nat n)) (fun z => (- 2 ^ (8 * n - 1) <=? z) && (z <? 2 ^ (8 * n - 1))).
Proof.
  intros Ht b Hp Hb _. assert (Hs : shape_of t = SInt n /\ 0 < n) by (destruct Ht as [[-> ->]|[[-> ->]|[-> ->]]]; cbn; auto with lia).
  destruct Hs as [Hs Hn]. rewrite Hs in *. inversion Hp as [n' b' Hl| | | |]; subst n' b'.
  destruct (sint_plain n b Hl Hn Hb) as (z & E & Hz). exists z. rewrite E. split; [lia|]. split; [now constructor|].
  split; [|reflexivity].
  destruct (complete t ltac:(destruct Ht as [[-> ->]|[[-> ->]|[-> ->]]]; reflexivity) b ltac:(now rewrite Hs)) as (v & Hg & Hset).
  exists v. auto.
Qed.
Lemma norm_i32 : norm TInt32 w_int32 l_i32.
Proof.
  eapply (norm_map _ _ _ (fun x => x)); [exact (norm_int TInt32 4 ltac:(auto))|reflexivity|]. intros x H. unfold l_i32. cbn in H. lia.
Qed.
Lemma norm_i64 : norm TInt64 w_int64 l_i64.
Proof.
  eapply (norm_map _ _ _ (fun x => x)); [exact (norm_int TInt64 8 ltac:(auto))|reflexivity|]. intros x H. unfold l_i64. cbn in H. lia.
Qed.
Lemma norm_u8 : norm TUint8 (fun z => [z]) is_byte.
Proof.
  intros b Hp Hb _. inversion Hp as [n b' Hl| | | |]; subst. destruct b as [|x [|y b]]; unfold zlen in Hl; cbn in Hl; try lia.
  exists x. cbn in Hb. split; [now rewrite andb_true_r in Hb|]. split; [now constructor|]. split; [|reflexivity].
  destruct (complete TUint8 eq_refl [x] Hp) as (v & Hg & Hset). exists v. auto.
Qed.

Lemma null_good n : l_i16 n = true -> n < 0 -> good peek_data16 (w_int16 n) None.
Proof.
  intros Hn Hneg. eapply good_ext; [apply peek_data16_eq|]. rewrite <- (app_nil_r (w_int16 n)).
  apply (good_bind (peek_sint 2) (fun c r n => if c <? 0 then DOk n None else tail_read c r n) _ _ n).
  - apply good_sint; [lia|unfold l_i16 in Hn; cbn; lia|]. rewrite <- enc_i16_w. reflexivity.
  - replace (n <? 0) with true by lia. apply good_ret.
Qed.
Lemma norm_str : norm TString w_string l_string.
Proof.
  intros b Hp Hb _. cbn [shape_of] in *. inversion Hp as [|n Hn Hneg|s Hs| |]; subst.
  - exists []. split; [reflexivity|]. change (w_string []) with (w_int16 0 ++ []). rewrite app_nil_r. split; [apply r_null; auto|].
    split; [|unfold w_int16; now rewrite !zlen_w_be].
    exists (VStr []). split; [|split; [|reflexivity]].
    + apply (good_map (fun o => VStr match o with Some s => s | None => [] end) _ _ None). now apply null_good.
    + apply (good_map (fun o => VStr match o with Some s => s | None => [] end) _ _ (Some [])).
      rewrite <- (app_nil_r (w_int16 0)). exact (client_good (Some []) eq_refl).
  - exists s. split; [assumption|]. split; [now constructor|]. split; [|reflexivity].
    destruct (complete TString eq_refl _ Hp) as (v & Hg & Hset). exists v. auto.
Qed.
Lemma norm_nstr : norm TNullableString w_nstring l_nstring.
Proof.
  intros b Hp Hb _. cbn [shape_of] in *. inversion Hp as [|n Hn Hneg|s Hs| |]; subst.
  - exists None. split; [reflexivity|]. cbn [w_nstring]. split; [apply r_null; auto|].
    split; [|unfold w_int16; now rewrite !zlen_w_be].
    exists (VNStr None). split; [|split; [|reflexivity]]; apply (good_map VNStr _ _ None); now apply null_good.
  - exists (Some s). split; [assumption|]. split; [now constructor|]. split; [|reflexivity].
    destruct (complete TNullableString eq_refl _ Hp) as (v & Hg & Hset). exists v. auto.
Qed.

Lemma items_cons e k b bs x vs : good (dec e false) b x -> settable e x = true ->
  good (fun r o => dec_items (dec e false) (settable e) r k o) bs vs ->
  good (fun r o => dec_items (dec e false) (settable e) r (S k) o) (b ++ bs) (x :: vs).
Proof.
  intros Hg Hset IH. eapply good_ext.
  2:{ apply (good_bind (dec e false) (fun x' r n => if settable e x' then dmap (cons x') (dec_items (dec e false) (settable e) r k n) else DPanic) b bs x (x :: vs)).
      - exact Hg.
      - rewrite Hset. apply (good_map (cons x)). exact IH. }
  intros r o. unfold dec_items at 1. fold (dec_items (dec e false) (settable e) r).
  destruct (dec e false r o) as [n y| |]; cbn; [|reflexivity|reflexivity].
  destruct (settable e y); [|reflexivity]. now destruct (dec_items (dec e false) (settable e) r k n).
Qed.
Lemma fields_cons t fs b bs x vs : good (dec t false) b x -> settable t x = true ->
  good (fun r o => dec_fields dec r fs o) bs vs ->
  good (fun r o => dec_fields dec r ((plain, t) :: fs) o) (b ++ bs) (x :: vs).
Proof.
  intros Hg Hset IH. eapply good_ext.
  2:{ apply (good_bind (dec t false) (fun x' r n => if settable t x' then dmap (cons x') (dec_fields dec r fs n) else DPanic) b bs x (x :: vs)).
      - exact Hg.
      - rewrite Hset. apply (good_map (cons x)). exact IH. }
  intros r o. cbn [dec_fields tCompact plain]. fold (dec_fields dec r).
  destruct (dec t false r o) as [n y| |]; cbn; [|reflexivity|reflexivity].
  destruct (settable t y); [|reflexivity]. now destruct (dec_fields dec r fs n).
Qed.

Lemma items_alike e : forall bs bs', Forall2 (alike e) bs bs' ->
  exists vs, good (fun r o => dec_items (dec e false) (settable e) r (length bs) o) (concat bs) vs /\
    good (fun r o => dec_items (dec e false) (settable e) r (length bs) o) (concat bs') vs.
Proof.
  induction 1 as [|b b' bs bs' (x & Hg & Hg' & Hset) _ (vs & IH & IH')].
  - exists []. split; apply good_ret.
  - exists (x :: vs). cbn [concat length]. split; apply items_cons; assumption.
Qed.
Lemma array_good e b k vs : 0 <= k < 2 ^ 31 -> good (fun r o => dec_items (dec e false) (settable e) r (Z.to_nat k) o) b vs ->
  good (dec (TSlice e) false) (w_int32 k ++ b) (VSlice (Some vs)).
Proof.
  intros Hk Hg. eapply good_ext; [intros; cbn [dec]; reflexivity|].
  apply (good_bind (peek_sint 4) (fun len r n => dec_fixed_array (dec e false) (settable e) r n len) _ _ k).
  - apply good_sint; [lia|cbn; lia|]. rewrite <- enc_i32_w. reflexivity.
  - unfold dec_fixed_array. replace (k <? 0) with false by lia. apply (good_map (fun xs => VSlice (Some xs))). exact Hg.
Qed.

Lemma norm_slice {A} e (w : A -> bytes) l : norm e w l -> (forall x, 1 <= zlen (w x)) ->
  norm (TSlice e) (w_array w) (fun xs => l_count xs && forallb l xs).
Proof.
  intros He H1 b Hp Hb Hz. cbn [shape_of] in *. inversion Hp as [| | |e' bs Hl HF|]; subst e' b.
  rewrite zlen_app in Hz. unfold w_int32 in Hz. rewrite zlen_w_be in Hz. rewrite all_bytes_app in Hb. apply andb_true_iff in Hb as [_ Hb].
  assert (G : exists xs, length xs = length bs /\ forallb l xs = true /\ Forall2 (reworded (shape_of e)) bs (map w xs) /\
    Forall2 (alike e) bs (map w xs) /\ zlen (concat (map w xs)) = zlen (concat bs) /\ zlen xs <= zlen (concat (map w xs))).
  { clear Hl Hp. assert (Hz' : zlen (concat bs) <= 4096) by lia. clear Hz. induction HF as [|b1 bs P1 _ IH].
    - exists []. split; [reflexivity|]. split; [reflexivity|]. split; [constructor|]. split; [constructor|]. split; [reflexivity|]. unfold zlen; cbn; lia.
    - cbn [concat] in Hb, Hz'. rewrite all_bytes_app in Hb. apply andb_true_iff in Hb as [Hb1 Hb]. rewrite zlen_app in Hz'.
      pose proof (zlen_nonneg b1). pose proof (zlen_nonneg (concat bs)).
      destruct (IH Hb ltac:(lia)) as (xs & L & F & R & E & Z1 & Z2). destruct (He b1 P1 Hb1 ltac:(lia)) as (x & Lx & Rx & Ex & Zx).
      exists (x :: xs). cbn [map concat forallb length]. rewrite Lx, !zlen_app, zlen_cons. specialize (H1 x). split; [lia|].
      repeat (split; [first [assumption|constructor; assumption|lia]|]). lia. }
  destruct G as (xs & L & F & R & E & Z1 & Z2).
  assert (Zx : zlen xs = zlen bs) by (unfold zlen; lia).
  exists xs. rewrite F. unfold w_array. rewrite Zx. split; [unfold l_count; lia|]. split; [now constructor|].
  split; [|rewrite !zlen_app; lia].
  destruct (items_alike e bs (map w xs) E) as (vs & G1 & G2). exists (VSlice (Some vs)). pose proof (zlen_nonneg bs).
  replace (length bs) with (Z.to_nat (zlen bs)) in G1, G2 by (unfold zlen; lia).
  split; [|split; [|reflexivity]]; apply array_good; auto with lia.
Qed.

Lemma normf_nil : normf [] (fun _ : unit => []) (fun _ => true).
Proof.
  intros bs HF _ _. inversion HF; subst. exists tt, []. repeat (split; [reflexivity || constructor|]). exists []. split; apply good_ret.
Qed.
Lemma normf_cons {A B} t ts (w : A -> bytes) l (w2 : B -> bytes) l2 : norm t w l -> normf ts w2 l2 ->
  normf (t :: ts) (fun p : A * B => w (fst p) ++ w2 (snd p)) (fun p => l (fst p) && l2 (snd p)).
Proof.
  intros Ht Hts bs HF Hb Hz. inversion HF as [|? b ? bs' P1 HF']; subst. cbn [concat] in *.
  rewrite all_bytes_app in Hb. apply andb_true_iff in Hb as [Hb1 Hb]. rewrite zlen_app in Hz.
  pose proof (zlen_nonneg b). pose proof (zlen_nonneg (concat bs')).
  destruct (Ht b P1 Hb1 ltac:(lia)) as (x & Lx & R & (v & G1 & G2 & Hset) & Zx).
  destruct (Hts bs' HF' Hb ltac:(lia)) as (y & bs2 & E & Ly & R2 & Zy & vs & K1 & K2).
  exists (x, y), (w x :: bs2). cbn [fst snd map concat]. rewrite Lx, Ly, E. repeat (split; [first [reflexivity|constructor; assumption|rewrite <- E, !zlen_app; lia]|]).
  exists (v :: vs). split; apply fields_cons; assumption.
Qed.
Lemma norm_fields {A} ts (w : A -> bytes) l : normf ts w l -> norm (fields ts) w l.
Proof.
  intros H b Hp Hb Hz. assert (Es : shape_of (fields ts) = SRec (map shape_of ts)).
  { unfold fields. cbn [shape_of]. f_equal. rewrite map_map. reflexivity. }
  rewrite Es in *. inversion Hp as [| | | |fs bs HF]; subst.
  destruct (H bs HF Hb Hz) as (x & bs' & E & Lx & R & Zx & vs & K1 & K2). exists x. split; [assumption|]. rewrite E in *. split; [now constructor|].
  split; [|assumption]. exists (VStruct vs). split; [|split; [|reflexivity]]; unfold fields; (eapply good_ext; [intros; cbn [dec]; reflexivity|]); now apply (good_map VStruct).
Qed.

(** ** The requests *)
Lemma norm_blob : norm (TSlice TUint8) (fun s => w_bytes (Some s)) l_bytes.
Proof.
  eapply (norm_map _ _ _ (fun x => x)); [apply (norm_slice TUint8 (fun z => [z]) is_byte norm_u8); intros; reflexivity || (cbn; lia)| |].
  - intros s. unfold w_array, w_bytes. f_equal. induction s as [|x s IH]; [reflexivity|]. cbn [map concat app]. now rewrite <- IH.
  - intros s H. exact H.
Qed.
Ltac long_tac := intros; rewrite ?zlen_app; unfold w_string, w_array, w_int32, w_int64, w_int16; rewrite ?zlen_app, ?zlen_w_be;
  repeat match goal with |- context [zlen ?x] => lazymatch goal with H : 0 <= zlen x |- _ => fail | _ => pose proof (zlen_nonneg x) end end; lia.
Lemma norm_topics {P} pt (w : P -> bytes) l : norm pt w l -> (forall x, 1 <= zlen (w x)) ->
  norm (TSlice (fields [TString; TSlice pt])) (w_array (fun t => w_string (fst t) ++ w_array w (snd t))) (l_topics l).
Proof.
  intros Hp H1. apply (norm_slice _ _ (fun t : bytes * list P => l_string (fst t) && (l_count (snd t) && forallb l (snd t)))); [|long_tac].
  eapply (norm_map _ _ _ (fun x : bytes * (list P * unit) => (fst x, fst (snd x)))).
  - exact (norm_fields _ _ _ (normf_cons _ _ _ _ _ _ norm_str (normf_cons _ _ _ _ _ _ (norm_slice pt w l Hp H1) normf_nil))).
  - intros x. cbn [fst snd]. now rewrite app_nil_r.
  - intros x H. cbn [fst snd] in *. now rewrite andb_true_r in H.
Qed.
Lemma norm_named : norm (TSlice (fields [TString; TSlice TUint8])) (w_array (fun p => w_string (fst p) ++ w_bytes (Some (snd p)))) l_named.
Proof.
  apply (norm_slice _ _ (fun p : bytes * bytes => l_string (fst p) && l_bytes (snd p))); [|intros; cbn [w_bytes]; long_tac].
  eapply (norm_map _ _ _ (fun x : bytes * (bytes * unit) => (fst x, fst (snd x)))).
  - exact (norm_fields _ _ _ (normf_cons _ _ _ _ _ _ norm_str (normf_cons _ _ _ _ _ _ norm_blob normf_nil))).
  - intros x. cbn [fst snd]. now rewrite app_nil_r.
  - intros x H. cbn [fst snd] in *. now rewrite andb_true_r in H.
Qed.

Notation "n +: r" := (normf_cons _ _ _ _ _ _ n r) (at level 60, right associativity, only parsing).

Lemma norm_fetch_part : norm tFetchReqPart (fun p : Z * Z * Z => let '(i, o, m) := p in w_int32 i ++ w_int64 o ++ w_int32 m)
  (fun p : Z * Z * Z => let '(i, o, m) := p in l_i32 i && l_i64 o && l_i32 m).
Proof.
  eapply (norm_map _ _ _ (fun x : Z * (Z * (Z * unit)) => (fst x, fst (snd x), fst (snd (snd x))))).
  - exact (norm_fields _ _ _ (norm_i32 +: norm_i64 +: norm_i32 +: normf_nil)).
  - intros x. cbn [fst snd]. now rewrite app_nil_r.
  - intros x H. cbn [fst snd] in *. now rewrite andb_true_r, andb_assoc in H.
Qed.
Lemma norm_list_part : norm tListReqPart (fun p : Z * Z => w_int32 (fst p) ++ w_int64 (snd p)) (fun p : Z * Z => l_i32 (fst p) && l_i64 (snd p)).
Proof.
  eapply (norm_map _ _ _ (fun x : Z * (Z * unit) => (fst x, fst (snd x)))).
  - exact (norm_fields _ _ _ (norm_i32 +: norm_i64 +: normf_nil)).
  - intros x. cbn [fst snd]. now rewrite app_nil_r.
  - intros x H. cbn [fst snd] in *. now rewrite andb_true_r in H.
Qed.
Lemma norm_commit_part : norm tCommitReqPart (fun p : Z * Z * option bytes => let '(i, o, m) := p in w_int32 i ++ w_int64 o ++ w_nstring m)
  (fun p : Z * Z * option bytes => let '(i, o, m) := p in l_i32 i && l_i64 o && l_nstring m).
Proof.
  eapply (norm_map _ _ _ (fun x : Z * (Z * (option bytes * unit)) => (fst x, fst (snd x), fst (snd (snd x))))).
  - exact (norm_fields _ _ _ (norm_i32 +: norm_i64 +: norm_nstr +: normf_nil)).
  - intros x. cbn [fst snd]. now rewrite app_nil_r.
  - intros x H. cbn [fst snd] in *. now rewrite andb_true_r, andb_assoc in H.
Qed.

(** Any body following the layout is read like a plain one. *)
Lemma body_plain key ver a sh b : dispatch key ver = Some a -> layout key ver = Some sh -> parses sh b -> all_bytes b = true -> zlen b <= 4096 ->
  exists body, plain_body key body /\ reworded sh b body /\ zlen body = zlen b /\
    forall port rest, startApi a port (b ++ rest) = startApi a port (body ++ rest).
Proof.
  intros Hd Hl Hp Hb Hz. pose proof (layout_schema key ver a Hd) as Hsch.
  assert (W : forall A t (f : val -> option A) k x rest, alike t b x -> zlen x = zlen b -> with_req t f (b ++ rest) k = with_req t f (x ++ rest) k).
  { intros A t f k x rest (v & G1 & G2 & _) Zx. unfold with_req.
    rewrite (readRequest_good t b v rest G1 Hz), (readRequest_good t x v rest G2) by lia. reflexivity. }
  assert (Ha : match a with ApiFetch => key = 1 | ApiListOffsets => key = 2 | ApiMetadata => key = 3 | ApiOffsetCommit => key = 8 | ApiOffsetFetch => key = 9
     | ApiFindCoordinator => key = 10 | ApiJoinGroup => key = 11 | ApiHeartbeat => key = 12 | ApiLeaveGroup => key = 13 | ApiSyncGroup => key = 14
     | ApiApiVersions => key = 18 end).
  { clear - Hd. rewrite dispatch_supported in Hd. unfold supported in Hd.
    repeat match type of Hd with match ?x with _ => _ end = _ => is_var x; destruct x; try discriminate end;
      injection Hd as <-; auto. }
  assert (N : forall A t (w : A -> bytes) l, req_ty a = Some t -> norm t w l ->
    exists x, l x = true /\ reworded sh b (w x) /\ alike t b (w x) /\ zlen (w x) = zlen b).
  { intros A t w l Ht Hn. rewrite Ht in Hsch. destruct Hsch as (Hl' & _). rewrite Hl in Hl'. injection Hl' as ->. now apply Hn. }
  assert (L1 : forall (p : Z * Z * Z), 1 <= zlen (let '(i, o, m) := p in w_int32 i ++ w_int64 o ++ w_int32 m)) by (intros [[? ?] ?]; long_tac).
  assert (L2 : forall (p : Z * Z * option bytes), 1 <= zlen (let '(i, o, m) := p in w_int32 i ++ w_int64 o ++ w_nstring m)) by (intros [[? ?] ?]; long_tac).
  destruct a; cbn [startApi req_ty] in *; subst key; cbn [plain_body].
  - destruct (N _ _ _ _ eq_refl (norm_fields _ _ _ (norm_slice _ _ _ norm_str ltac:(long_tac) +: normf_nil))) as ((ts & []) & Lx & R & E & Zx).
    cbn [fst snd] in *. rewrite ?app_nil_r, ?andb_true_r in *.
    eexists. split; [exists ts; split; [reflexivity|exact Lx]|]. split; [exact R|]. split; [exact Zx|]. intros. now apply W.
  - destruct (N _ _ _ _ eq_refl (norm_fields _ _ _ (norm_str +: normf_nil))) as ((k & []) & Lx & R & E & Zx).
    cbn [fst snd] in *. rewrite ?app_nil_r, ?andb_true_r in *.
    eexists. split; [exists k; split; [reflexivity|exact Lx]|]. split; [exact R|]. split; [exact Zx|]. intros. now apply W.
  - destruct (N _ _ _ _ eq_refl (norm_fields _ _ _ (norm_str +: norm_topics _ _ _ norm_i32 ltac:(long_tac) +: normf_nil))) as ((g & ts & []) & Lx & R & E & Zx).
    cbn [fst snd] in *. rewrite ?app_nil_r, ?andb_true_r in *.
    eexists. split; [exists g, ts; split; [reflexivity|exact Lx]|]. split; [exact R|]. split; [exact Zx|]. intros. now apply W.
  - destruct (N _ _ _ _ eq_refl (norm_fields _ _ _ (norm_str +: norm_i32 +: norm_i32 +: norm_str +: norm_str +: norm_named +: normf_nil)))
      as ((g & se & re & me & tp & ps & []) & Lx & R & E & Zx).
    cbn [fst snd] in *. rewrite ?app_nil_r, ?andb_true_r, ?andb_assoc in *.
    eexists. split; [exists g, se, re, me, tp, ps; split; [reflexivity|exact Lx]|]. split; [exact R|]. split; [exact Zx|]. intros. now apply W.
  - destruct (N _ _ _ _ eq_refl (norm_fields _ _ _ (norm_str +: norm_i32 +: norm_str +: norm_named +: normf_nil)))
      as ((g & gen & me & ps & []) & Lx & R & E & Zx).
    cbn [fst snd] in *. rewrite ?app_nil_r, ?andb_true_r, ?andb_assoc in *.
    eexists. split; [exists g, gen, me, ps; split; [reflexivity|exact Lx]|]. split; [exact R|]. split; [exact Zx|]. intros. now apply W.
  - destruct (N _ _ _ _ eq_refl (norm_fields _ _ _ (norm_str +: norm_str +: normf_nil))) as ((g & me & []) & Lx & R & E & Zx).
    cbn [fst snd] in *. rewrite ?app_nil_r, ?andb_true_r, ?andb_assoc in *.
    eexists. split; [exists g, me; split; [reflexivity|exact Lx]|]. split; [exact R|]. split; [exact Zx|]. intros. now apply W.
  - destruct Hsch as [_ ->]. injection Hl as <-. inversion Hp as [| | | |fs bs HF]; subst. inversion HF; subst.
    exists []. split; [reflexivity|]. split; [exact (r_rec [] [] [] (Forall3_nil _))|]. split; reflexivity.
  - destruct (N _ _ _ _ eq_refl (norm_fields _ _ _ (norm_str +: norm_i32 +: norm_str +: normf_nil))) as ((g & gen & me & []) & Lx & R & E & Zx).
    cbn [fst snd] in *. rewrite ?app_nil_r, ?andb_true_r, ?andb_assoc in *.
    eexists. split; [exists g, gen, me; split; [reflexivity|exact Lx]|]. split; [exact R|]. split; [exact Zx|]. intros. now apply W.
  - destruct (N _ _ _ _ eq_refl (norm_fields _ _ _ (norm_i32 +: norm_topics _ _ _ norm_list_part ltac:(long_tac) +: normf_nil))) as ((r & ts & []) & Lx & R & E & Zx).
    cbn [fst snd] in *. rewrite ?app_nil_r, ?andb_true_r, ?andb_assoc in *.
    eexists. split; [exists r, ts; split; [reflexivity|exact Lx]|]. split; [exact R|]. split; [exact Zx|]. intros. now apply W.
  - destruct (N _ _ _ _ eq_refl (norm_fields _ _ _ (norm_i32 +: norm_i32 +: norm_i32 +: norm_topics _ _ _ norm_fetch_part L1 +: normf_nil)))
      as ((r & w & mb & ts & []) & Lx & R & E & Zx).
    cbn [fst snd] in *. rewrite ?app_nil_r, ?andb_true_r, ?andb_assoc in *.
    eexists. split; [exists r, w, mb, ts; split; [reflexivity|exact Lx]|]. split; [exact R|]. split; [exact Zx|]. intros. now apply W.
  - destruct (N _ _ _ _ eq_refl (norm_fields _ _ _ (norm_str +: norm_i32 +: norm_str +: norm_i64 +: norm_topics _ _ _ norm_commit_part L2 +: normf_nil)))
      as ((g & gen & me & ret & ts & []) & Lx & R & E & Zx).
    cbn [fst snd] in *. rewrite ?app_nil_r, ?andb_true_r, ?andb_assoc in *.
    eexists. split; [exists g, gen, me, ret, ts; split; [reflexivity|exact Lx]|]. split; [exact R|]. split; [exact Zx|]. intros. now apply W.
Qed.

Lemma header_plain h key ver corr : is_header h key ver corr -> zlen h <= 4096 -> all_bytes h = true ->
  exists client hc, h = w_int16 key ++ w_int16 ver ++ w_int32 corr ++ hc /\ reworded SStr hc (w_nstring client) /\
    l_header key ver corr client = true /\ zlen (w_nstring client) = zlen hc.
Proof.
  intros (hc & -> & Hc & Hk & Hv & Hco) Hz Hb. rewrite !all_bytes_app, !andb_true_iff in Hb. destruct Hb as (_ & _ & _ & Hb).
  rewrite !zlen_app in Hz. unfold w_int16, w_int32 in Hz. rewrite !zlen_w_be in Hz.
  destruct (norm_nstr hc Hc Hb ltac:(lia)) as (o & Lo & R & _ & Zo). exists o, hc. split; [reflexivity|]. split; [exact R|]. split; [|exact Zo].
  unfold l_header. rewrite Hk, Hv, Hco, Lo. rewrite zlen_nstring in Zo. cbn [andb]. lia.
Qed.

Lemma request_plain m key ver corr h b extra : is_request m key ver corr h b extra -> all_bytes m = true ->
  exists sh client hc body, layout key ver = Some sh /\ h = w_int16 key ++ w_int16 ver ++ w_int32 corr ++ hc /\
    reworded SStr hc (w_nstring client) /\ reworded sh b body /\
    l_header key ver corr client = true /\ plain_body key body /\ zlen body <= 4096 /\
    zlen (w_request key ver corr client (body ++ extra)) = zlen m /\
    forall port, beginRequest port m = beginRequest port (w_request key ver corr client (body ++ extra)).
Proof.
  intros (-> & Hh & Lh & sh & Hlay & Hp & Lb) Hb. rewrite !all_bytes_app, !andb_true_iff in Hb. destruct Hb as (Hbh & Hbb & _).
  destruct (layout_dispatch _ _ _ Hlay) as [a Ed].
  destruct (header_plain h key ver corr Hh Lh Hbh) as (client & hc & Eh & Rh & Lc & Zh).
  destruct (body_plain key ver a sh b Ed Hlay Hp Hbb Lb) as (body & Pb & Rb & Zb & Sb).
  exists sh, client, hc, body. repeat (split; [assumption || lia|]). split.
  - subst h. unfold w_request. rewrite !zlen_app. lia.
  - intros port. rewrite (begin_header port h (b ++ extra) key ver corr Hh Lh), (begin_request _ _ _ _ _ _ Lc), Ed. now rewrite Sb.
Qed.

(** ** Other bytes in the place of one request *)
Section patched.
Context (m' : bytes).

(** [d] bytes from the start, [m'] is written over what is there. *)
Fixpoint patch (d : Z) (b : bytes) : bytes :=
  match b with
  | [] => []
  | x :: b' => (if (d <=? 0) && (- d <? zlen m') then nth (Z.to_nat (- d)) m' 0 else x) :: patch (d - 1) b'
  end.
Lemma patch_app d a b : patch d (a ++ b) = patch d a ++ patch (d - zlen a) b.
Proof.
  revert d. induction a as [|x a IH]; intros d; cbn [app patch].
  - now rewrite zlen_nil, Z.sub_0_r.
  - rewrite IH, zlen_cons. do 3 f_equal. lia.
Qed.
Lemma patch_len d b : zlen (patch d b) = zlen b.
Proof. revert d. induction b as [|x b IH]; intros d; [reflexivity|]. cbn [patch]. rewrite !zlen_cons. now rewrite IH. Qed.
Lemma patch_before d b : zlen b <= d -> patch d b = b.
Proof.
  revert d. induction b as [|x b IH]; intros d H; [reflexivity|]. cbn [patch]. rewrite zlen_cons in H. pose proof (zlen_nonneg b).
  replace (d <=? 0) with false by lia. cbn [andb]. rewrite IH by lia. reflexivity.
Qed.
Lemma patch_after d b : d <= - zlen m' -> patch d b = b.
Proof.
  revert d. induction b as [|x b IH]; intros d H; [reflexivity|]. cbn [patch].
  replace (- d <? zlen m') with false by lia. rewrite andb_false_r. rewrite IH by lia. reflexivity.
Qed.
Lemma patch_over b : zlen b = zlen m' -> patch 0 b = m'.
Proof.
  intros H. cut (forall p q c, m' = p ++ q -> zlen c = zlen q -> patch (- zlen p) c = q).
  { intros G. exact (G [] m' b eq_refl H). }
  intros p q. revert p. induction q as [|y q IH]; intros p c E L.
  - destruct c; [reflexivity|]. rewrite zlen_cons, zlen_nil in L. pose proof (zlen_nonneg c). lia.
  - destruct c as [|x c]; [rewrite zlen_cons, zlen_nil in L; pose proof (zlen_nonneg q); lia|]. cbn [patch].
    assert (Hm : zlen m' = zlen p + (zlen q + 1)) by (rewrite E, zlen_app, zlen_cons; reflexivity).
    pose proof (zlen_nonneg p). pose proof (zlen_nonneg q).
    replace (- zlen p <=? 0) with true by lia. replace (- - zlen p <? zlen m') with true by lia. cbn [andb]. f_equal.
    + rewrite E. rewrite app_nth2 by (unfold zlen; lia). replace (Z.to_nat (- - zlen p) - length p)%nat with O by (unfold zlen; lia). reflexivity.
    + replace (- zlen p - 1) with (- zlen (p ++ [y])) by (rewrite zlen_app; change (zlen [y]) with 1; lia).
      apply IH; [now rewrite <- app_assoc|]. rewrite !zlen_cons in L. lia.
Qed.
Lemma patch_bytes d b : all_bytes m' = true -> all_bytes b = true -> all_bytes (patch d b) = true.
Proof.
  intros Hm. revert d. induction b as [|x b IH]; intros d H; [reflexivity|]. cbn [patch]. cbn in H. apply andb_true_iff in H as [H1 H2].
  cbn. apply andb_true_iff. split; [|now apply IH]. destruct ((d <=? 0) && (- d <? zlen m')) eqn:E; [|assumption].
  unfold all_bytes in Hm. rewrite forallb_forall in Hm. apply Hm. apply nth_In. unfold zlen in E. lia.
Qed.

Lemma getMessage_patch d inb : all_bytes m' = true -> all_bytes inb = true -> 4 <= d ->
  getMessage (patch d inb) = match getMessage inb with
    | GMsg msg rest => GMsg (patch (d - 4) msg) (patch (d - 4 - zlen msg) rest)
    | g => g end.
Proof.
  intros Hm Hb Hd. destruct (Z.lt_ge_cases (zlen inb) 4) as [L|L].
  { unfold getMessage. rewrite patch_len. replace (zlen inb <? 4) with true by lia. reflexivity. }
  destruct (getMessage inb) as [|msg rest|] eqn:E.
  - unfold getMessage in *. rewrite patch_len. replace (zlen inb <? 4) with false in * by lia.
    assert (F : firstn 4 (patch d inb) = firstn 4 inb).
    { rewrite <- (firstn_skipn 4 inb) at 1. rewrite patch_app, patch_before by (unfold zlen in *; rewrite firstn_length; lia).
      apply firstn_app_exact. rewrite firstn_length. unfold zlen in L. lia. }
    rewrite F. destruct (zlen inb <? be_get (firstn 4 inb) + 4); [reflexivity|].
    destruct (uwrap 32 (4 + be_get (firstn 4 inb)) <? 4); discriminate.
  - apply getMessage_frame in E as [-> Hz]; [|assumption]. rewrite patch_app. unfold w_frame.
    assert (H4 : zlen (w_int32 (zlen msg)) = 4) by (unfold w_int32; now rewrite zlen_w_be).
    rewrite patch_app, (patch_before d) by lia. rewrite H4, zlen_app, H4.
    replace (d - (4 + zlen msg)) with (d - 4 - zlen msg) by lia.
    rewrite <- (patch_len (d - 4) msg) at 1. apply (getMessage_found (patch (d - 4) msg)). now rewrite patch_len.
  - unfold getMessage in *. rewrite patch_len. replace (zlen inb <? 4) with false in * by lia.
    assert (F : firstn 4 (patch d inb) = firstn 4 inb).
    { rewrite <- (firstn_skipn 4 inb) at 1. rewrite patch_app, patch_before by (unfold zlen in *; rewrite firstn_length; lia).
      apply firstn_app_exact. rewrite firstn_length. unfold zlen in L. lia. }
    rewrite F. destruct (zlen inb <? be_get (firstn 4 inb) + 4); [discriminate|].
    destruct (uwrap 32 (4 + be_get (firstn 4 inb)) <? 4); [reflexivity|discriminate].
Qed.
End patched.
