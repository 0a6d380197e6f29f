(** * SeenSpec: replies that show at least what was there before *)
From Verif Require Export SnapSpec.
From stdpp Require Import gmap list.
Open Scope Z_scope.
Open Scope list_scope.

(** Of partitions there when the request was taken up, a Fetch reply comes past all
    records posted by then. *)
Definition fetch_sees (A : list obs) (corr : Z) (ts : list (bytes * list (Z * Z * Z))) (B : list obs) (r : bytes) : Prop :=
  posts_small (A ++ B) ->
  exists res, r = w_reply corr (w_fetch_resp 0 (fetch_ents ts res)) /\
    Forall2 (fun (q : bytes * (Z * Z * Z)) x => tr_has (fst q) (fst (fst (snd q))) A = true ->
      zlen (tr_log (fst q) (fst (fst (snd q))) A) <= fst x) (flat ts) res.

(** Asked for the latest offset (time -1), ListOffsets counts them all. *)
Definition list_sees (A : list obs) (corr : Z) (ts : list (bytes * list (Z * Z))) (B : list obs) (r : bytes) : Prop :=
  exists ents, r = w_reply corr (w_list_resp ents) /\
    entrywise (fun t p (e : Z * Z * Z * Z) => snd p = -1 -> tr_has t (fst p) A = true -> zlen (tr_log t (fst p) A) <= snd e) ts ents.

(** OffsetFetch gives an offset for each partition that was there, none lower than
    the one the group had, unless it was set in the meantime. *)
Definition off_sees (A : list obs) (corr : Z) (g : bytes) (ts : list (bytes * list Z)) (B : list obs) (r : bytes) : Prop :=
  exists ents, r = w_reply corr (w_off_resp ents) /\
    (forall t p, In (t, p) (flat ts) -> tr_has t p A = true -> exists l o, In (t, l) ents /\ In (p, o, None, 0) l) /\
    (forall t l p o m er, In (t, l) ents -> In (p, o, m, er) l ->
       (forall i y, ~ In (OSet i t p g y) B) -> tr_off t p g A <= o).

(** The results [res2] of a later Fetch do not stop short of those of [res1]. *)
Definition not_back (qs1 : list (bytes * (Z * Z * Z))) (res1 : list (Z * bytes)) (qs2 : list (bytes * (Z * Z * Z))) (res2 : list (Z * bytes)) : Prop :=
  forall k l t p o1 m1 o2 m2 x1 x2,
    nth_error qs1 k = Some (t, (p, o1, m1)) -> nth_error res1 k = Some x1 -> snd x1 <> [] ->
    nth_error qs2 l = Some (t, (p, o2, m2)) -> nth_error res2 l = Some x2 -> fst x1 <= fst x2.
