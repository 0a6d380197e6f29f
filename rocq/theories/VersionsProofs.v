(** * VersionsProofs: the advertised versions are those with a layout *)
From Verif Require Export ReplyMore RejectProofs.
From stdpp Require Import gmap list.
From Coq Require Import Sorted.
Open Scope Z_scope.
Open Scope list_scope.

Lemma dispatch_layout key ver : (exists a, dispatch key ver = Some a) <-> exists sh, layout key ver = Some sh.
Proof.
  split; [|intros [sh H]; eapply layout_dispatch, H].
  intros [a H]. pose proof (layout_schema key ver a H) as Hl. destruct (req_ty a); [eexists; apply Hl|]. destruct Hl as [-> ->]. eexists. reflexivity.
Qed.
Theorem versions_exact' port ch A c corr client s :
  l_header 18 0 corr client = true ->
  serving port ch A c (w_request 18 0 corr client []) s ->
  exists keys,
    answers c s (fun _ r => r = w_reply corr (w_versions_resp 0 keys)) 5 /\
    StronglySorted Z.lt (map (fun k : Z * Z * Z => fst (fst k)) keys) /\
    forall key ver,
      ((exists a, dispatch key ver = Some a) <-> exists lo hi, In (key, lo, hi) keys /\ lo <= ver <= hi) /\
      ((exists sh, layout key ver = Some sh) <-> exists lo hi, In (key, lo, hi) keys /\ lo <= ver <= hi).
Proof.
  intros Hh Hs. destruct (versions_exact port ch A c corr client s Hh Hs) as (keys & H1 & H2 & H3).
  exists keys. split; [exact H1|]. split; [exact H2|]. intros key ver. split; [apply H3|]. now rewrite <- dispatch_layout.
Qed.
