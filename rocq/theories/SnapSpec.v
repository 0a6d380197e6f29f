(** * SnapSpec: one moment at which all of a Fetch reply is right *)
From Verif Require Export ReplySpec.
From stdpp Require Import gmap list.
Open Scope Z_scope.
Open Scope list_scope.

(** [x] (high watermark, message set) holds exactly the records partition [q] had,
    from the fetch offset on, after the observations [os]. *)
Definition exactly (os : list obs) (q : bytes * (Z * Z * Z)) (x : Z * bytes) : Prop :=
  let '(t, (idx, off, max)) := q in
  let rs := skipn (Z.to_nat off) (tr_log t idx os) in x = (off + zlen rs, w_records off rs).
(** For a partition that was not there when the request was taken up (after [A]),
    these or none. *)
Definition as_it_was (A os : list obs) (q : bytes * (Z * Z * Z)) (x : Z * bytes) : Prop :=
  exactly os q x \/ (tr_has (fst q) (fst (fst (snd q))) A = false /\ x = (snd (fst (snd q)), [])).

(** One moment [A ++ B0] for all partitions. *)
Definition snapshot (A : list obs) (corr : Z) (ts : list (bytes * list (Z * Z * Z))) (B : list obs) (r : bytes) : Prop :=
  posts_small (A ++ B) ->
  exists res B0, B0 `prefix_of` B /\ Forall2 (as_it_was A (A ++ B0)) (flat ts) res /\
    r = w_reply corr (w_fetch_resp 0 (fetch_ents ts res)).

(** Of two records posted one after the other, the reply does not give the second
    (posted at or after its fetch offset) without having come past the first. *)
Definition in_order_of_posting (A B : list obs) (qs : list (bytes * (Z * Z * Z))) (res : list (Z * bytes)) : Prop :=
  forall k l ta pa oa ma xa tb pb ob mb xb X i ra Y j rb Z,
    nth_error qs k = Some (ta, (pa, oa, ma)) -> nth_error res k = Some xa ->
    nth_error qs l = Some (tb, (pb, ob, mb)) -> nth_error res l = Some xb ->
    tr_has ta pa A = true -> A ++ B = (X ++ OPosted i ta pa ra :: Y) ++ OPosted j tb pb rb :: Z ->
    ob <= zlen (tr_log tb pb (X ++ OPosted i ta pa ra :: Y)) < fst xb -> zlen (tr_log ta pa X) < fst xa.
