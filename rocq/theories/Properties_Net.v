(** Property theorems about news that crosses several ideal links (C106). *)
From Coq Require Import List NArith ZArith Bool Arith Lia.
From Coq.Strings Require Import Byte.
From Verif Require Import Base Mon MonFacts Iblt BaseFacts IbltFacts SpecIblt HonestFacts IbltProps
  Tlv State NMap TlvFacts NMapFacts Codec CodecFacts Properties_Iblt Store StoreFacts
  Producer SpecProducer ProducerFacts Properties_Producer Partial SpecPartial PartialFacts PartialSteps Properties_Partial
  Full FullTrace SpecFull FullFacts FullSafe FullSteps FullData FullRuns FullReplies Properties_Full
  SpecExchange ExchangeFacts Properties_Exchange SpecFresh SpecDeliver DeliverFacts Properties_Deliver SpecNet NetFacts.
Import ListNotations.
Local Open Scope N_scope.

(** * C106 *)
(** whatever the first node of a path of ideal links knew in the beginning, the last one knows in the
    end, once the sum of the delays of the single links has passed *)
Theorem C106_news_cross_the_network : forall x ys,
  regular x -> path x ys -> hops x ys <= time_of (ln_events x) ->
  forall p, knows (ln_from x) p <= knows (ln_to (last ys x)) p.
Proof. intros x ys. exact (path_news (length ys) x ys eq_refl). Qed.
Print Assumptions C106_news_cross_the_network.

Definition Kn : fcfg := mkFcfg syncp 10 SNone SNone 20000 100 codec_none env_example 100.
(** node a published pa/4, node c published pb/7; b lies between them *)
Definition past_a : list fev := [FeApi (AAdd pa); FeApi (APublish pa (Some 4))].
Definition past_c : list fev := [FeApi (AAdd pb); FeApi (APublish pb (Some 7))].
Definition a0_106 : fp := Eval vm_compute in fst (full_after Kn past_a).
Definition b0_106 : fp := Eval vm_compute in fst (full_after Kn []).
Definition c0_106 : fp := Eval vm_compute in fst (full_after Kn past_c).
Definition nb_106 : name := Eval vm_compute in ask_with Kn (iblt_new 10) 0.
Definition nc_106 : name := Eval vm_compute in ask_with Kn (k_iblt (f_core c0_106)) 7.
Definition nb2_106 : name := Eval vm_compute in ask_with Kn (k_iblt (f_core a0_106)) 4.
Definition cend_106 : fp := Eval vm_compute in fst (run_of Kn c0_106 [FeTick 10100; FeSend; FeContent 1 buf_104 []]).
Definition nc2_106 : name := Eval vm_compute in ask_with Kn (k_iblt (f_core cend_106)) (k_count (f_core cend_106)).
Definition ea_106 : list fev :=
  [FeTick 10100; FeSend; FeInterest nb_106 20000; FeTick 100; FeStore 0; FeInterest nb2_106 20000; FeTick 10000; FeSend; FeTick 100;
   FeInterest nb2_106 20000; FeTick 2200].
Definition eb_106 : list fev :=
  [FeTick 10100; FeSend; FeContent 1 buf_104 []; FeInterest nc_106 20000; FeTick 100; FeStore 0; FeSend; FeInterest nc2_106 20000;
   FeTick 10000; FeTick 100; FeSend; FeInterest nc2_106 20000; FeTick 2200].
Definition ec_106 : list fev :=
  [FeTick 10100; FeSend; FeContent 1 buf_104 []; FeTick 100; FeSend; FeTick 10000; FeTick 100; FeSend; FeTick 2200].
Definition oa_106 : list fout := Eval vm_compute in snd (run_of Kn a0_106 ea_106).
Definition ob_106 : list fout := Eval vm_compute in snd (run_of Kn b0_106 eb_106).
Definition oc_106 : list fout := Eval vm_compute in snd (run_of Kn c0_106 ec_106).
Definition a_106 : line := mkLine Kn 0 past_a (snd (full_after Kn past_a)) a0_106 ea_106 oa_106 (fst (run_of Kn a0_106 ea_106)).
Definition b_106 : line := mkLine Kn 0 [] (snd (full_after Kn [])) b0_106 eb_106 ob_106 (fst (run_of Kn b0_106 eb_106)).
Definition c_106 : line := mkLine Kn 0 past_c (snd (full_after Kn past_c)) c0_106 ec_106 oc_106 (fst (run_of Kn c0_106 ec_106)).
Lemma line_regular past s evs o s' seen : Forall fev_wf past -> fp_start Kn 0 past = Some (s, seen) -> Forall fev_wf evs ->
  fp_run Kn s evs = Some (s', o) -> steady 0 (past ++ evs) -> prompt Kn s evs -> no_collision Kn (seen ++ o) ->
  no_removal (flat_map ev_ops evs) -> (pb_published (f_pub s') <= 100)%nat -> regular (mkLine Kn 0 past seen s evs o s').
Proof.
  intros. split; cbn [ln_cfg ln_sys ln_past ln_seen ln_from ln_events ln_out ln_to]; auto.
  - split; left; reflexivity.
  - apply lossless_none.
  - intros n. reflexivity.
  - split; [lia|assumption].
  - split; assumption.
  - apply versions_example. assumption.
Qed.
Ltac regular_line := apply line_regular;
  [repeat constructor; try (apply wf_nil; reflexivity)|run|repeat constructor; apply wf_nil; reflexivity|run|cbn; auto|
   repeat (eapply prompt_step; [run|intros dt dl k X Y; try discriminate X; injection X as <-; vm_compute in Y; injection Y as <- <-; vm_compute; discriminate|]); exact I|
   intros pre post k E H; eapply check_free_ok; [|exact E|exact H]; run|apply keeps_all_ok; run|apply Nat.leb_le; run].
Lemma regular_a : regular a_106. Proof. unfold a_106, ea_106. regular_line. Qed.
Lemma regular_b : regular b_106. Proof. unfold b_106, eb_106. regular_line. Qed.
Lemma regular_c : regular c_106. Proof. unfold c_106, ec_106. regular_line. Qed.
Ltac jsend1 xs := eapply (j_send Kn Kn _ _ _ xs) with (y := []); [discriminate|cbn [app]; run|intros ? ? []|early|run| |].
Ltac jquiet := intros ? ? H; vm_compute in H; repeat (destruct H as [H|H]; [discriminate H|]); destruct H.
Ltac ja := eapply j_a; [discriminate|run|].
Ltac jb := eapply j_b; [discriminate|run|jquiet|].
Ltac janswer n := cbn [data_of]; eexists 1%nat, buf_104, [], _; split; [run|]; split; [|reflexivity];
  match goal with |- fetched ?p ?d _ => change (fetched p d (d_content d)) end;
  eapply (fetched_one _ _ (n ++ [number_comp TYPE_VERSION 1000]) (Tlv.mkComp TYPE_SEGMENT [x00])); run.
Lemma joint_ab : exists oa ob a b, joint Kn Kn a0_106 b0_106 ea_106 oa eb_106 ob a b.
Proof.
  unfold ea_106, eb_106. eexists _, _, _, _.
  jtick. ja. jsend1 (@nil fout). { janswer nb_106. } jb. jb.
  jtick. ja. jb. jsend1 (@nil fout). { exact I. } jb.
  jtick. ja. jtick. jsend1 (@nil fout). { exact I. } jb. jtick. constructor.
Qed.
Lemma joint_bc : exists oa ob a b, joint Kn Kn b0_106 c0_106 eb_106 oa ec_106 ob a b.
Proof.
  unfold eb_106, ec_106. eexists _, _, _, _.
  jtick. ja. ja. jsend1 (@nil fout). { janswer nc_106. } jb.
  jtick. ja. ja. jsend1 (@nil fout). { exact I. }
  jtick. jtick. ja. jsend1 (@nil fout). { exact I. } jtick. constructor.
Qed.
Lemma joint_lines past1 seen1 s1 e1 o1 t1 past2 seen2 s2 e2 o2 t2 : (exists oa ob a b, joint Kn Kn s1 s2 e1 oa e2 ob a b) ->
  fp_run Kn s1 e1 = Some (t1, o1) -> fp_run Kn s2 e2 = Some (t2, o2) -> all_numbered (past1 ++ e1) = true ->
  forallb (fun k => forallb (comparable_b Kn (past1 ++ e1) k) (cores (f_core s2) (ops_of o2))) (cores (f_core s1) (ops_of o1)) = true ->
  linked (mkLine Kn 0 past1 seen1 s1 e1 o1 t1) (mkLine Kn 0 past2 seen2 s2 e2 o2 t2).
Proof.
  intros (oa & ob & a & b & J) A B N H. destruct (joint_run _ _ _ _ _ _ _ _ _ _ J) as [Ra Rb].
  rewrite A in Ra. rewrite B in Rb. injection Ra as <- <-. injection Rb as <- <-.
  split; cbn [ln_cfg ln_sys ln_past ln_seen ln_from ln_events ln_out ln_to]; [repeat split|exact J|].
  intros k kb Hk Hb. apply held_cores in Hk, Hb. eapply (comparable_all Kn _ _ _); [reflexivity|reflexivity|exact N|exact H|exact Hk|exact Hb].
Qed.
Example C106_example :
  regular a_106 /\ path a_106 [b_106; c_106] /\ hops a_106 [b_106; c_106] = 22402 /\ time_of (ln_events a_106) = 22500 /\
  knows (ln_from a_106) pa = 4 /\ knows (ln_from c_106) pa = 0 /\ knows (ln_to c_106) pa = 4.
Proof.
  split; [exact regular_a|]. split.
  { split; [apply joint_lines; [exact joint_ab|run|run|run|run]|]. split; [exact regular_b|].
    split; [apply joint_lines; [exact joint_bc|run|run|run|run]|]. split; [exact regular_c|exact I]. }
  split; [run|]. split; [run|]. split; [run|]. split; run.
Qed.
