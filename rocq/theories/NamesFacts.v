(** Every packet belongs to one publication. *)
From Coq Require Import List NArith ZArith Bool Arith Lia.
From Verif Require Import Base BaseFacts Mon MonFacts Iblt Tlv TlvFacts State NMap NMapFacts Codec CodecFacts Bloom Store StoreFacts
  Producer SpecProducer Partial SpecPartial PartialFacts PartialSteps Full FullTrace SpecFull FullFacts FullSteps SpecDeliver SpecNames.
Import ListNotations.
Local Open Scope N_scope.

(** ** The publications made so far *)
Record entry := mkEntry { en_base : name; en_buf : bytes; en_fresh : N; en_sg : nat }.
Section Ledger.
Variable E : env.
(** notices have this freshness *)
Variable nf : N.
Definition listed (L : list entry) (d : data) : Prop :=
  exists k x i, nth_error L k = Some x /\ (i < nseg (en_buf x))%nat /\
    d = seg_data E (en_sg x) (append_version (en_base x) (en_version E k)) (en_buf x) (en_fresh x) i.
Definition notice (d : data) : Prop := exists sg n c, ctype c = TYPE_GENERIC /\ d = nack_data E sg nf (n ++ [c]).
Record ledger (L : list entry) (b : pub) : Prop := mkLedger {
  lg_len : length L = pb_published b;
  lg_signed : forall x, In x L -> (nseg (en_buf x) <= pb_signed b)%nat;
  lg_store : forall d, In d (pb_store b) -> listed L d }.
Lemma listed_app L L' d : listed L d -> listed (L ++ L') d.
Proof.
  intros (k & x & i & A & B). exists k, x, i. split; auto. rewrite nth_error_app1; auto. apply nth_error_Some. congruence.
Qed.
Lemma ledger_publish L now i dn buf f b : ledger L b -> exists x,
  ledger (L ++ [x]) (fst (publish E now i dn buf f b)) /\
  forall d, In d match snd (publish E now i dn buf f b) with Ok l => l | _ => [] end -> listed (L ++ [x]) d.
Proof.
  intros [A B C]. exists (mkEntry dn buf f (pb_signed b)). unfold publish. cbn [fst snd]. rewrite insert_segments_eq.
  cbn [pb_store pb_limit pb_timers pb_published pb_signed].
  set (x := mkEntry dn buf f (pb_signed b)).
  assert (forall d, In d (segment E (pb_signed b) (append_version dn (en_version E (pb_published b))) buf f) -> listed (L ++ [x]) d) as H.
  { intros d Hd. apply segment_In in Hd as (j & Hj & ->). exists (length L), x, j.
    rewrite nth_error_app2, Nat.sub_diag by lia. split; [reflexivity|]. split; [exact Hj|]. cbn [en_sg en_base en_buf en_fresh x].
    rewrite A. reflexivity. }
  split.
  - constructor; cbn [pb_store pb_limit pb_timers pb_published pb_signed].
    + rewrite app_length, A. cbn [length]. lia.
    + intros y Hy. rewrite segment_length. apply in_app_or in Hy as [Hy|[<-|[]]]; [apply B in Hy; lia|cbn [en_buf x]; lia].
    + intros d Hd. apply fold_insert_In in Hd as [Hd|Hd]; [apply listed_app, C, Hd|apply H, Hd].
  - intros d Hd. destruct (put_segment i _) as [l|e|u|] eqn:P; try contradiction. apply H. eapply put_segment_In; eauto.
Qed.
Lemma ledger_fire L now i b : ledger L b -> ledger L (pub_fire now i b).
Proof.
  intros H. unfold pub_fire. destruct (nth_error (pb_timers b) i) as [[dl n]|]; [|exact H]. destruct (dl <=? now); [|exact H].
  destruct H as [A B C]. constructor; cbn; auto. intros d Hd. apply C. apply filter_In in Hd. apply Hd.
Qed.
Lemma ledger_count L b : ledger L b -> ledger L (count_signed b).
Proof. intros [A B C]. constructor; cbn; auto. Qed.
Lemma ledger_new : ledger [] pub_new.
Proof. constructor; cbn; try reflexivity; intros ? []. Qed.

(** with different versions a name determines the publication and the segment *)
Lemma listed_bound L b d1 d2 : ledger L b -> versions_differ E (pb_published b) -> N.of_nat (pb_signed b) <= two64 ->
  listed L d1 \/ notice d1 -> listed L d2 \/ notice d2 -> d_name d1 = d_name d2 -> same_packet d1 d2.
Proof.
  intros [A B _] V Sg H1 H2 Hn.
  assert (forall k x i sg n c, ctype c = TYPE_GENERIC ->
    d_name (seg_data E (en_sg x) (append_version (en_base x) (en_version E k)) (en_buf x) (en_fresh x) i) = d_name (nack_data E sg nf (n ++ [c])) -> False) as Mix.
  { intros k x i sg n c Hc Eq. cbn [d_name seg_data nack_data] in Eq. unfold append_segment, append_version in Eq.
    apply app_inj_tail in Eq as [Eq _]. apply app_inj_tail in Eq as [_ <-]. discriminate Hc. }
  destruct H1 as [(k1 & x1 & i1 & P1 & Q1 & ->)|(sg1 & n1 & c1 & Q1 & ->)], H2 as [(k2 & x2 & i2 & P2 & Q2 & ->)|(sg2 & n2 & c2 & Q2 & ->)].
  - cbn [d_name seg_data] in Hn. unfold append_segment, append_version in Hn.
    apply app_inj_tail in Hn as [Hn Hs]. apply app_inj_tail in Hn as [_ Hv].
    pose proof (B x1 (nth_error_In _ _ P1)) as B1. pose proof (B x2 (nth_error_In _ _ P2)) as B2.
    assert (k1 < pb_published b)%nat as L1 by (rewrite <- A; apply nth_error_Some; congruence).
    assert (k2 < pb_published b)%nat as L2 by (rewrite <- A; apply nth_error_Some; congruence).
    apply number_comp_inj in Hv as [_ Hv]; [|apply (V k1 k1 L1 L1)|apply (V k2 k2 L2 L2)]. apply (V k1 k2 L1 L2) in Hv. subst k2.
    assert (x2 = x1) as -> by congruence.
    apply number_comp_inj in Hs as [_ Hs]; [|lia|lia]. assert (i2 = i1) as -> by lia. repeat split.
  - destruct (Mix _ _ _ _ _ _ Q2 Hn).
  - destruct (Mix _ _ _ _ _ _ Q1 (eq_sym Hn)).
  - repeat split. intros X. discriminate X.
Qed.
End Ledger.

(** ** Partial producers *)
Section Partial.
Variable K : pcfg.
Notation E := (pc_env K).
Notation nf := (pc_sync_fresh K).
Definition grows {A} (m : PM A) : Prop := forall s L, ledger E L (pp_pub s) -> exists L',
  ledger E (L ++ L') (pp_pub (st (m s))) /\ forall d, In d (outs (m s)) -> listed E (L ++ L') d \/ notice E nf d.
Lemma grows_ret {A} (a : A) : grows (mret a).
Proof. intros s L H. exists []. rewrite app_nil_r. split; [exact H|intros d []]. Qed.
Lemma grows_lift {A} (r : outcome A) : grows (mlift r).
Proof. intros s L H. exists []. rewrite app_nil_r. split; [exact H|intros d []]. Qed.
Lemma grows_mod f : (forall s, pp_pub (f s) = pp_pub s) -> grows (mmod f).
Proof. intros F s L H. exists []. rewrite app_nil_r. cbn [mmod st fst]. rewrite F. split; [exact H|intros d []]. Qed.
Lemma grows_bind {A B} (m : PM A) (f : A -> PM B) : grows m -> (forall a, grows (f a)) -> grows (mbind m f).
Proof.
  intros Hm Hf s L H. destruct (Hm s L H) as (L1 & A1 & A2). unfold mbind, st, outs in *.
  destruct (m s) as [[s1 o1] [a|e|u|]]; cbn [fst snd] in *; try (exists L1; split; assumption).
  destruct (Hf a s1 _ A1) as (L2 & B1 & B2). unfold st, outs in *. destruct (f a s1) as [[s2 o2] r2]. cbn [fst snd] in *.
  exists (L1 ++ L2). rewrite app_assoc. split; [exact B1|]. intros d Hd. apply in_app_or in Hd as [Hd|Hd]; [|auto].
  destruct (A2 d Hd) as [X|X]; [left; apply listed_app; exact X|auto].
Qed.
Lemma grows_get {B} (f : pp -> PM B) : (forall s, grows (f s)) -> grows (mbind mget f).
Proof. intros H s L HL. rewrite mbind_get. apply H, HL. Qed.
Lemma grows_publish i dn buf f : grows (pp_publish K i dn buf f).
Proof.
  intros s L H. rewrite pp_publish_eq. destruct (ledger_publish E L (pp_now s) i dn buf f (pp_pub s) H) as (x & A & B).
  exists [x]. split; [exact A|]. intros d Hd. left. apply B, Hd.
Qed.
Lemma grows_nack n : grows (pp_send_nack K n).
Proof.
  intros s L H. unfold pp_send_nack. rewrite mbind_get, mbind_lift. exists []. rewrite app_nil_r.
  destruct (append_ibf _ _ _ _) as [dn|e|u|] eqn:Ea; try (split; [exact H|intros d []]).
  rewrite mbind_mod. cbn [memit st outs fst snd]. split; [apply ledger_count, H|]. intros d [<-|[]]. right.
  apply append_ibf_carries in Ea as (c & [Hc _] & ->). eexists _, _, _. split; [exact Hc|reflexivity].
Qed.
Lemma grows_reply n (m : pp -> PM unit) : (forall s, grows (m s)) -> grows (mbind mget (fun s =>
  match reply_from_store n (pp_pub s) with Some d => memit [d] | None => m s end)).
Proof.
  intros Hm s L H. rewrite mbind_get. destruct (reply_from_store n (pp_pub s)) as [d|] eqn:R; [|apply Hm, H].
  exists []. rewrite app_nil_r. split; [exact H|]. intros d' [<-|[]]. left. apply (lg_store _ _ _ H).
  unfold reply_from_store in R. apply store_find_Some in R. apply R.
Qed.
Ltac grow := repeat first [apply grows_ret | apply grows_lift | apply grows_publish | apply grows_nack |
  apply grows_mod; reflexivity | apply grows_bind; [|intro]].
Lemma grows_satisfy p keys : grows (satisfy K p keys).
Proof.
  induction keys as [|key keys IH]; cbn [satisfy]; [apply grows_ret|]. apply grows_bind; [|intros _; exact IH].
  unfold satisfy_one. apply grows_get. intros s. destruct (nm_find key (pp_pending s)) as [e|]; [|grow].
  apply grows_bind; [grow|]. intros d. cbv zeta. destruct (negb _); [grow|]. apply grows_bind; [grow|]. intros x.
  destruct (x || _); grow.
Qed.
Lemma grows_step e : grows (pp_step K e).
Proof.
  destruct e as [p|p|p q|n l|dt|key|i]; cbn [pp_step]; try (apply grows_mod; reflexivity).
  - apply grows_get. intros s. grow.
  - unfold pp_publish_name. apply grows_get. intros s. apply grows_bind; [grow|]. intros [k v]. cbn [fst snd].
    apply grows_bind; [grow|]. intros _. destruct v; [apply grows_satisfy|grow].
  - unfold dispatch. destruct (is_prefix _ n); [|destruct (is_prefix _ n); [|grow]].
    + apply grows_reply. intros s. apply grows_bind; [grow|]. intros x. destruct x; grow.
    + apply grows_reply. intros s. destruct (sync_request _ n) as [r|]; [|grow].
      apply grows_bind; [grow|]. intros [[bf t]|]; [|grow]. apply grows_bind; [grow|]. intros d.
      destruct (negb _); [grow|]. apply grows_bind; [grow|]. intros c. destruct (_ || _); grow.
  - apply grows_mod. intros s. unfold expire. destruct (nm_find key _) as [e|]; [|reflexivity].
    destruct (pe_expiry e) as [[dl y]|]; [|reflexivity]. destruct (dl <=? _); reflexivity.
  - intros s L H. exists []. rewrite app_nil_r. cbn [mmod st outs fst snd pp_pub set_pub].
    split; [apply ledger_fire, H|intros d []].
Qed.
Lemma pp_run_ledger evs : forall s o, pp_run K (pp_new K) evs = Some (s, o) ->
  exists L, ledger E L (pp_pub s) /\ forall d, In d o -> listed E L d \/ notice E nf d.
Proof.
  unfold pp_run. induction evs as [|e evs IH] using rev_ind; intros s o R.
  - injection R as <- <-. exists []. split; [apply ledger_new|intros d []].
  - apply run_snoc in R as (s1 & o1 & o2 & R & <- & <- & -> & _). apply IH in R as (L & A & B).
    destruct (grows_step e s1 L A) as (L' & A' & B'). exists (L ++ L'). split; [exact A'|].
    intros d Hd. apply in_app_or in Hd as [Hd|Hd]; [|auto]. destruct (B d Hd) as [X|X]; [left; apply listed_app; exact X|auto].
Qed.
End Partial.

(** ** Full-sync nodes *)
Section Full.
Variable K : fcfg.
Notation E := (fc_env K).
Notation nf := (fc_fresh K).
Definition fgrows (s : fp) (o : list fout) (s' : fp) : Prop := forall L, ledger E L (f_pub s) -> exists L',
  ledger E (L ++ L') (f_pub s') /\ forall d, In d (data_of o) -> listed E (L ++ L') d \/ notice E nf d.
Lemma fdata_app a b : data_of (a ++ b) = data_of a ++ data_of b.
Proof. induction a as [|[]]; simpl; auto. rewrite IHa. reflexivity. Qed.
Lemma fdata_map l : data_of (map FoData l) = l.
Proof. induction l; simpl; auto. rewrite IHl. reflexivity. Qed.
Lemma fgrows_same s o s' : f_pub s' = f_pub s -> data_of o = [] -> fgrows s o s'.
Proof. intros A B L H. exists []. rewrite app_nil_r, A, B. split; [exact H|intros d []]. Qed.
Lemma fgrows_trans s o s1 o1 s2 : fgrows s o s1 -> fgrows s1 o1 s2 -> fgrows s (o ++ o1) s2.
Proof.
  intros A B L H. destruct (A L H) as (L1 & A1 & A2). destruct (B _ A1) as (L2 & B1 & B2).
  exists (L1 ++ L2). rewrite app_assoc. split; [exact B1|]. intros d Hd. rewrite fdata_app in Hd.
  apply in_app_or in Hd as [Hd|Hd]; [|auto]. destruct (A2 d Hd) as [X|X]; [left; apply listed_app; exact X|auto].
Qed.
Lemma fgrows_publish s n b f : fgrows s
    (map FoData match snd (publish E (f_now s) n n b f (f_pub s)) with Ok l => l | _ => [] end)
    (fset_pub (fst (publish E (f_now s) n n b f (f_pub s))) s).
Proof.
  intros L H. destruct (ledger_publish E L (f_now s) n n b f (f_pub s) H) as (x & A & B).
  exists [x]. split; [exact A|]. intros d Hd. rewrite fdata_map in Hd. left. apply B, Hd.
Qed.
Lemma fgrows_send s : fgrows s (outs (send_sync_interest K s)) (st (send_sync_interest K s)).
Proof.
  rewrite send_eq.
  destruct (f_wait s); [apply fgrows_same; reflexivity|].
  destruct (sync_name _ _) as [n|e|u|]; [|apply fgrows_same; cbn [st outs fst snd]; auto using stopped_pub..].
  destruct (_ && _); apply fgrows_same; cbn [st outs fst snd]; unfold sent; cbn; auto using stopped_pub.
Qed.
Lemma fgrows_closed ok : closed K ok fgrows.
Proof.
  split; intros; try (apply fgrows_same; reflexivity); try apply fgrows_send.
  - eapply fgrows_trans; eauto.
  - intros L HL. exists []. rewrite app_nil_r. split; [exact HL|]. intros x [<-|[]]. left. apply (lg_store _ _ _ HL).
    unfold reply_from_store in H. apply store_find_Some in H. apply H.
  - apply fgrows_publish.
  - intros L HL. exists []. rewrite app_nil_r. split; [apply ledger_count, HL|]. intros x [<-|[]]. right.
    apply append_ibf_carries in H as (c & [Hc _] & ->). eexists _, _, _. split; [exact Hc|reflexivity].
  - apply data_closed; intros; try (apply fgrows_same; reflexivity).
    + eapply fgrows_trans; eauto.
    + apply fgrows_publish.
    + apply fgrows_send.
  - apply start_closed; intros; try (apply fgrows_same; reflexivity). eapply fgrows_trans; eauto.
  - apply arm_closed; intros; try (apply fgrows_same; reflexivity). eapply fgrows_trans; eauto.
  - intros L HL. exists []. rewrite app_nil_r. split; [apply ledger_fire, HL|intros d []].
Qed.
Lemma fgrows_events : closed_events fgrows.
Proof. split; intros; apply fgrows_same; reflexivity. Qed.
Lemma fgrows_step e s : fgrows s (outs (fp_step K e s)) (st (fp_step K e s)).
Proof.
  assert (Forall (fun _ : cop => True) (ev_ops e)) as Ho by (apply Forall_forall; auto).
  destruct e as [a|n l|i buf script|i face|i timeout|dt|t| | |key|i];
    try (apply (tr_step_but K (fun _ => True) fgrows (fgrows_closed _)); auto using fgrows_events; exact I).
  - apply fgrows_same; reflexivity.
  - apply fgrows_same; reflexivity.
  - pose proof (fgrows_closed (fun _ => True)) as C.
    change (tr fgrows s (fp_step K FeDelay)). cbn [fp_step].
    apply (tr_get fgrows). destruct (f_delay s) as [dl|]; [|apply (tr_ret K _ fgrows C)].
    destruct (dl <=? _); [|apply (tr_ret K _ fgrows C)].
    apply (tr_mod K _ fgrows C); [apply fgrows_same; reflexivity|].
    apply (tr_seq K _ fgrows C); [apply (tr_process K _ fgrows C); auto|intros; apply (tr_schedule K _ fgrows C)].
Qed.
Lemma fp_run_ledger sys evs s o : fp_start K sys evs = Some (s, o) ->
  exists L, ledger E L (f_pub s) /\ forall d, In d (data_of o) -> listed E L d \/ notice E nf d.
Proof.
  unfold fp_start, fp_init. pose proof (fgrows_send (fp_blank K sys) [] (ledger_new E)) as (L0 & A0 & B0).
  destruct (send_sync_interest K (fp_blank K sys)) as [[s0 o0] [u|x|u|]] eqn:Q; try discriminate.
  unfold st, outs in A0, B0. cbn [fst snd app] in A0, B0.
  destruct (fp_run K s0 evs) as [[s' o']|] eqn:R; [|discriminate]. intros [= <- <-]. revert s' o' R.
  unfold fp_run. induction evs as [|e evs IH] using rev_ind; intros s' o' R.
  - injection R as <- <-. rewrite app_nil_r. eauto.
  - apply run_snoc in R as (s1 & o1 & o2 & R & <- & <- & -> & _). apply IH in R as (L & A & B).
    destruct (fgrows_step e s1 L A) as (L' & A' & B'). exists (L ++ L'). split; [exact A'|].
    intros d Hd. rewrite app_assoc, fdata_app in Hd. apply in_app_or in Hd as [Hd|Hd]; [|auto].
    destruct (B d Hd) as [X|X]; [left; apply listed_app; exact X|auto].
Qed.
End Full.
