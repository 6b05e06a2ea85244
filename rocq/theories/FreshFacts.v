(** The age of what is answered from memory. *)
From Coq Require Import List NArith ZArith Bool Arith Lia.
From Verif Require Import Base BaseFacts Mon MonFacts Tlv TlvFacts Store StoreFacts SpecStore SpecFresh PartialFacts
  Properties_Store.
Import ListNotations.
Local Open Scope N_scope.

(** every stored packet has an erase event, at a time that [P] relates to it *)
Definition kept (P : N -> data -> Prop) (b : pub) : Prop :=
  forall d, In d (pb_store b) -> exists dl, In (dl, d_name d) (pb_timers b) /\ P dl d.

Lemma kept_mono (P Q : N -> data -> Prop) b : (forall dl d, P dl d -> Q dl d) -> kept P b -> kept Q b.
Proof. intros H K d Hd. destruct (K d Hd) as (dl & A & B). eauto. Qed.
Lemma kept_new P : kept P pub_new. Proof. intros d []. Qed.
Lemma publish_kept P E now i dn buf f b b' r : publish E now i dn buf f b = (b', r) -> kept P b ->
  (forall d, In d (segment E (pb_signed b) (append_version dn (en_version E (pb_published b))) buf f) -> P (now + f) d) ->
  kept P b' /\ forall l d, r = Ok l -> In d l -> P (now + f) d.
Proof.
  unfold publish. intros [= <- <-] K H. rewrite insert_segments_eq. split.
  - intros d Hd. cbn [pb_store pb_timers pb_limit] in *. apply fold_insert_In in Hd as [Hd|Hd].
    + destruct (K d Hd) as (dl & A & B). exists dl. split; auto. apply in_or_app. auto.
    + exists (now + f). split; auto. apply in_or_app. right. apply in_map_iff. exists d. auto.
  - intros l d Hl Hd. apply H. eapply put_segment_In; eauto.
Qed.
Lemma fire_kept P now i b : kept P b -> kept P (pub_fire now i b).
Proof.
  unfold pub_fire. intros K. destruct (nth_error (pb_timers b) i) as [[dl n]|] eqn:E; auto.
  destruct (dl <=? now); auto. intros d Hd. cbn [pb_store pb_timers] in *. apply filter_In in Hd as [Hd Hp].
  destruct (K d Hd) as (dl' & A & B). exists dl'. split; auto.
  destruct (remove_nth_In _ _ _ _ E A) as [|Hr]; auto. injection Hr as _ Hr.
  rewrite <- Hr, is_prefix_refl in Hp. discriminate.
Qed.
Lemma reply_kept P now n b d : kept P b -> erased_in_time now b -> reply_from_store n b = Some d ->
  exists dl, P dl d /\ now < dl.
Proof.
  intros K T H. unfold reply_from_store in H. apply store_find_Some in H as (H & _).
  destruct (K d H) as (dl & A & B). exists dl. split; auto. eapply T; eauto.
Qed.
Lemma segment_in E k vn buf f d : In d (segment E k vn buf f) -> segment_of buf d /\ d_fresh d = f /\ is_prefix vn (d_name d) = true.
Proof.
  intros H. split; [|apply segment_In in H as (i & _ & ->); split; [reflexivity|apply is_prefix_app]].
  exists vn, (segment E k vn buf f). split; auto using segment_SegmentsOf.
Qed.
