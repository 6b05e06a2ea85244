(** Proofs about complete exchanges between a partial producer and a consumer (C85, C86). *)
From Coq Require Import List NArith ZArith Bool Arith Lia.
From Verif Require Import Base BaseFacts Mon MonFacts Iblt SpecIblt HonestFacts Tlv TlvFacts State NMap NMapFacts Codec CodecFacts
  Properties_Iblt Bloom SpecBloom BloomFacts Properties_Bloom Store StoreFacts Producer SpecProducer ProducerFacts Properties_Producer
  Partial SpecPartial PartialFacts PartialSteps Properties_Partial Full SpecFull FullRuns Consumer SpecConsumer ConsumerFacts ConsumerReplies Properties_Consumer
  SpecExchange ExchangeFacts Properties_Exchange SpecGroup GroupFacts Properties_Group SpecPair PairProducer PairConsumer PairFacts.
Import ListNotations.
Local Open Scope N_scope.

Lemma publish_first E now pre cc dname buf fresh p p' r : publish E now (pre ++ [cc]) dname buf fresh p = (p', r) ->
  is_segment cc = false -> exists d v g, r = Ok [d] /\ d_type d = Blob /\ d_name d = dname ++ [v; g].
Proof.
  intros H Hc. unfold publish in H. injection H as _ H. unfold put_segment in H. rewrite name_get_back_snoc in H. cbn [obind] in H.
  rewrite Hc in H. cbn [obind] in H. set (segs := segment _ _ _ _ _) in H.
  assert (0 < nseg buf)%nat as Hn by apply nseg_bounds. assert (length segs = nseg buf) as Ls by apply segment_length.
  destruct (N.ltb_spec 0 (N.of_nat (length segs))); [|lia]. cbn [N.to_nat] in H. unfold segs in H. rewrite segment_nth in H by auto.
  eexists _, _, _. split; [symmetry; exact H|]. split; [reflexivity|]. cbn [d_name seg_data]. unfold append_segment, append_version.
  rewrite <- app_assoc. reflexivity.
Qed.
Lemma generic_not_segment cc : ctype cc = TYPE_GENERIC -> is_segment cc = false.
Proof. intros H. unfold is_segment. rewrite H. reflexivity. Qed.

Section Progress.
Variables (K : pcfg) (Kc : ccfg).
Hypothesis Ok2 : duo_ok K Kc.
Let n := pc_n K.

Lemma now_point b0 S W w : DI K Kc b0 S W w -> crun (core_new n) (history (du_evs w)) = Ok (pp_core (du_prod w)) /\
  point n (history (du_evs w)) (pp_core (du_prod w)).
Proof.
  intros D. pose proof (pp_run_core _ _ _ _ _ (di_run _ _ _ _ _ _ D)) as Cr. cbn [pp_new pp_core] in Cr. split; [exact Cr|].
  exists (history (du_evs w)), []. split; [symmetry; apply app_nil_r|exact Cr].
Qed.
(** what the waiting entry stands for *)
Lemma waiting_entry b0 S W w i m e : DI K Kc b0 S W w -> plain K w -> In (i, (KSync, m)) (c_live (du_cons w)) ->
  nm_find m (pp_pending (du_prod w)) = Some e ->
  exists k, point n (history (du_evs w)) k /\ pe_iblt e = k_iblt k /\ IbfOf n (map name_hash (live k)) (pe_iblt e) /\
    NoDup (map name_hash (live k)) /\
    forall p, sub (du_cons w) p -> bloom_contains (pe_bf e) p = Ok true /\ (S p -> covered W (du_cons w) k p).
Proof.
  intros [Dn Dr Dw Dc Dt] [P1 P2 P3 P4] Hi He. pose proof (history_wf _ Dw) as Wh.
  destruct (ci_sync _ _ _ _ _ _ _ _ _ _ Dc i m Hi) as (d1 & d2 & d3 & cc & k & b & Em & [Bc _] & Ca & Pk & Z).
  destruct (po_entry _ _ (pp_run_ok _ _ _ _ Dr) m e He) as (c1 & c2 & c3 & c4 & tl & E1 & _ & _ & B & T).
  unfold sync_prefix in Em. rewrite <- (dk_sync _ _ Ok2), <- app_assoc in Em. cbn [app] in Em. rewrite E1 in Em.
  apply app_inv_head in Em. injection Em as -> -> -> ->.
  rewrite (dk_libm _ _ Ok2), Bc in B. injection B as <-.
  assert (pe_iblt e = k_iblt k) as Et by (eapply (carries_read K (history (du_evs w))); eauto; apply (dk_lossless _ _ Ok2)).
  destruct (point_ibf K _ _ Wh P1 Pk) as (Ik & Nk & _).
  exists k. split; [exact Pk|]. split; [exact Et|]. split; [rewrite Et; exact Ik|]. split; [exact Nk|].
  intros p Hp. destruct (Z p Hp) as [Z1|[[]|[]]]. exact Z1.
Qed.
Lemma waiting_current b0 w i m e p : DI K Kc b0 (fun _ => True) (fun _ => 0) w -> plain K w -> no_removal (history (du_evs w)) ->
  In (i, (KSync, m)) (c_live (du_cons w)) -> nm_find m (pp_pending (du_prod w)) = Some e -> sub (du_cons w) p ->
  exists u, seq_of p (du_cons w) = Some u /\ current w p = Some u.
Proof.
  intros D Pl Nr Hi He Hp. pose proof (history_wf _ (di_wf _ _ _ _ _ _ D)) as Wh.
  destruct (waiting_entry _ _ _ w i m e D Pl Hi He) as (k & Pk & _ & Ik & Nk & Z). destruct (Z p Hp) as [Zb Zc]. specialize (Zc I).
  destruct (now_point _ _ _ w D) as [Cr Pt]. pose proof D as [Dn Dr Dw Dc Dt]. destruct Pl as [P1 P2 P3 P4].
  assert (known (du_cons w) p <> None) as Hk by (eapply (di_known b0); [apply Dc|exact Hp]).
  destruct (known (du_cons w) p) as [v|] eqn:Ev; [|congruence]. destruct (ci_known _ _ _ _ _ _ _ _ _ _ Dc p v Ev) as (u & Eu & L).
  exists u. split; [|exact Eu]. unfold seq_of. unfold known in Ev. rewrite Ev. f_equal.
  destruct (N.eq_dec u 0) as [->|Hu]; [lia|].
  assert (get_seq p (pp_core (du_prod w)) = Some u) as G by (rewrite (C29_sequence_numbers n _ _ p Wh Cr); exact Eu).
  assert (In (append_number p u) (live (pp_core (du_prod w)))) as Hl by (apply (point_live K _ _ _ Wh Pt); eauto).
  assert (In (name_hash (append_number p u)) (map name_hash (live k))) as H.
  { eapply (C38_no_update_skipped K (du_evs w) (du_prod w) (du_sent w)); eauto using dk_scheme.
    - apply (differ_free K _ Wh P1).
    - intros pre post s o E R. apply P2; [|exact Pk]. exists (history pre), (history post).
      split; [rewrite E; apply history_app|]. pose proof (pp_run_core _ _ _ _ _ R) as C'. exact C'.
    - unfold append_number. rewrite name_prefix_back_snoc. exact Zb. }
  apply in_map_iff in H as (nm & En & Hnm). rewrite (P1 k _ nm (append_number p u) Pk Pt Hnm Hl En) in Hnm.
  apply (point_live K _ k _ Wh Pk) in Hnm as (q & x & G2 & _ & Eq).
  apply append_number_inj in Eq as [<- <-]; [|exact (get_lt K (du_evs w) _ p u Dw Pt G)|exact (get_lt K (du_evs w) k q x Dw Pk G2)].
  unfold covered in Zc. rewrite G2 in Zc. unfold known in Zc. rewrite Ev in Zc. cbn [seq0] in Zc. lia.
Qed.

(** the request that a sync interest of the consumer is *)
Lemma own_request b0 S W w i m : DI K Kc b0 S W w -> plain K w -> In (i, (KSync, m)) (c_live (du_cons w)) ->
  exists k b pre cc, point n (history (du_evs w)) k /\ sync_request_for K m m b (k_iblt k) /\ bloom_sound b /\
    IbfOf n (map name_hash (live k)) (k_iblt k) /\ NoDup (map name_hash (live k)) /\
    m = pre ++ [cc] /\ ctype cc = TYPE_GENERIC.
Proof.
  intros [Dn Dr Dw Dc Dt] [P1 P2 P3 P4] Hi. pose proof (history_wf _ Dw) as Wh.
  destruct (ci_sync _ _ _ _ _ _ _ _ _ _ Dc i m Hi) as (d1 & d2 & d3 & cc & k & b & Em & [Bc Bs] & Ca & Pk & Z).
  destruct (point_ibf K _ _ Wh P1 Pk) as (Ik & Nk & Wk). unfold sync_prefix in Em.
  exists k, b, (cc_sync Kc ++ [SYNC; d1; d2; d3]), cc. split; [exact Pk|]. split; [|split; [exact Bs|]; split; [exact Ik|]; split; [exact Nk|]].
  2:{ split; [rewrite Em, <- !app_assoc; reflexivity|apply Ca]. }
  exists d1, d2, d3, cc, []. rewrite app_nil_r. split; [rewrite (dk_sync _ _ Ok2), Em, <- app_assoc; reflexivity|]. split; [reflexivity|].
  split; [left; reflexivity|]. split; [rewrite (dk_libm _ _ Ok2); exact Bc|]. destruct Ca as [_ Cc].
  destruct (initialize_append (pc_codec K) (pc_scheme K) [] (k_iblt k) [Tlv.mkComp TYPE_GENERIC (cval cc)] (iblt_new n)) as (c' & E & Q).
  - apply (dk_lossless _ _ Ok2).
  - exact Wk.
  - symmetry. eapply length_ibf; eauto.
  - unfold append_ibf. rewrite Cc. reflexivity.
  - injection E as <-. unfold initialize in *. cbn [cval] in Q. exact Q.
Qed.
(** what the producer does with it *)
Lemma arrival b0 S W w i m l : DI K Kc b0 S W w -> plain K w -> In (i, (KSync, m)) (c_live (du_cons w)) ->
  reply_from_store m (pp_pub (du_prod w)) = None ->
  exists s o, pp_step K (PInterest m l) (du_prod w) = (s, o, Ok tt) /\
    ((o = [] /\ exists e, nm_find m (pp_pending s) = Some e) \/
     (exists d, o = [d] /\ d_type d = AppNack) \/
     (exists d, o = [d] /\ d_type d = Blob)).
Proof.
  intros D Pl Hi Hr. destruct (own_request _ _ _ w i m D Pl Hi) as (k & b & pre & cc & Pk & Rq & Bs & Ik & Nk & Em & Tc).
  destruct (now_point _ _ _ w D) as [Cr Pt]. pose proof D as [Dn Dr Dw Dc Dt]. destruct Pl as [P1 P2 P3 P4].
  pose proof (history_wf _ Dw) as Wh. pose proof (dk_scheme _ _ Ok2) as Sk. pose proof (differ_free K _ Wh P1) as Cf.
  destruct (exact_at K (du_evs w) (du_prod w) (du_sent w) _ _ Dw Cf Dr Nk Ik (P2 _ _ Pt Pk)) as (d & Ed & _).
  destruct (append_cases K m (k_iblt (pp_core (du_prod w))) Sk) as (c & _ & Hc).
  destruct (can_decode d) eqn:Cd.
  - destruct (names_of_difference K (du_evs w) (du_prod w) (du_sent w) b _ d Dw Cf Dr Ed Bs) as (names & M & _).
    rewrite (step_decoded _ _ _ _ _ _ _ _ _ _ Sk Rq Hr Ed Cd M Hc). destruct (_ || _).
    + rewrite pp_publish_eq. destruct (publish _ _ _ _ _ _ _) as [p' r] eqn:P. rewrite Em in P at 1.
      destruct (publish_first _ _ _ _ _ _ _ _ _ _ P (generic_not_segment _ Tc)) as (x & v & g & -> & Ty & _).
      eexists _, _. split; [reflexivity|]. right. right. exists x. auto.
    + eexists _, _. split; [reflexivity|]. left. split; [reflexivity|]. cbn [pp_pending set_pending]. unfold add_pending.
      destruct (nm_find m (pp_pending (du_prod w))); rewrite nm_find_set, name_eqb_refl; eauto.
  - rewrite (step_nack _ _ _ _ _ _ _ _ _ Sk Rq Hr Ed Cd Hc). eexists _, _. split; [reflexivity|]. right. left. eexists. split; reflexivity.
Qed.
(** a reply that is not from the memory carries the current IBF *)
Lemma fresh_name s nm l s' d : scheme_ok (pc_codec K) (pc_scheme K) -> reply_from_store nm (pp_pub s) = None ->
  pp_step K (PInterest nm l) s = (s', [d], Ok tt) -> d_type d = Blob ->
  exists pre c v g, d_name d = pre ++ [c; v; g] /\ ctype v = TYPE_VERSION /\ carries_ibf (pc_codec K) (pc_scheme K) c (k_iblt (pp_core s)).
Proof.
  intros Sk Hr E Ty.
  assert (forall i dn b f s1 c pre, dn = pre ++ [c] -> carries_ibf (pc_codec K) (pc_scheme K) c (k_iblt (pp_core s)) ->
    pp_publish K i dn b f s = (s1, [d], Ok tt) ->
    exists pre c v g, d_name d = pre ++ [c; v; g] /\ ctype v = TYPE_VERSION /\ carries_ibf (pc_codec K) (pc_scheme K) c (k_iblt (pp_core s))) as G.
  { intros i dn b f s1 c pre -> Hc H. rewrite pp_publish_eq in H. destruct (publish _ _ _ _ _ _ _) as [p r] eqn:P.
    destruct r as [o|e|u|]; try discriminate. cbn [fst snd ok_or] in H. injection H as _ ->.
    unfold publish in P. injection P as _ P. apply put_segment_In in P. specialize (P d (or_introl eq_refl)).
    apply segment_In in P as (j & _ & ->). cbn [d_name seg_data]. eexists pre, c, _, _. split; [|split; [|exact Hc]].
    - unfold append_segment, append_version. rewrite <- !app_assoc. reflexivity.
    - reflexivity. }
  destruct (interest_cases K s nm l) as [(x & Hx & _)|[(_ & H)|[(_ & rname & bf & t & Hq)|(_ & H & _)]]].
  - congruence.
  - destruct (is_hello_total _ _ H) as (b & B). rewrite (step_hello K s nm l b H Hr B) in E. destruct b; [|discriminate].
    destruct (append_cases K (pc_sync K ++ [HELLO]) (k_iblt (pp_core s)) Sk) as (c & Ea & Hc). rewrite Ea in E. eapply G; eauto.
  - rewrite (step_request _ _ _ _ _ _ _ Hq Hr), mbind_lift in E. destruct (iblt_sub _ _ _) as [x|e|u|]; try discriminate.
    unfold on_request in E. rewrite mbind_get in E. destruct (negb (can_decode x)).
    + exfalso. unfold pp_send_nack in E. rewrite mbind_get, mbind_lift in E. destruct (append_ibf _ _ _ _); try discriminate.
      rewrite mbind_mod in E. injection E as _ <-. discriminate.
    + rewrite mbind_lift in E. destruct (matching _ _ _) as [names|e|u|]; try discriminate. destruct (_ || _); [|discriminate].
      rewrite mbind_lift in E. destruct (append_cases K rname (k_iblt (pp_core s)) Sk) as (c & Ea & Hc). rewrite Ea in E. eapply G; eauto.
  - rewrite E in H. discriminate.
Qed.
(** after a fetch the consumer holds the IBF of the reply *)
Lemma fetch_holds rule d pre c v g w w' : fetches Kc rule d w w' -> d_type d = Blob -> d_name d = pre ++ [c; v; g] -> c_iblt (du_cons w') = [c].
Proof.
  intros (i & k & m & buf & sc1 & sc2 & c1 & o1 & r1 & c2 & o2 & r2 & Fi & Cm & _ & E1 & _ & E2 & _ & ->) Ty Hn. cbn [du_cons].
  assert (last_comp (name_prefix_back (d_name d) 2) = [c]) as HX.
  { rewrite Hn. change (pre ++ [c; v; g]) with (pre ++ [c] ++ [v; g]). rewrite app_assoc. unfold name_prefix_back. rewrite app_length. cbn [length].
    rewrite Nat.add_sub, firstn_app, Nat.sub_diag, firstn_all, firstn_O, app_nil_r. apply last_comp_snoc. }
  destruct Cm as (base & segs & fc & last & _ & _ & Fd & _).
  assert (hI [c] (st (c_step Kc (CeContent i buf sc1 sc2) c1))) as H; [|rewrite E2 in H; exact H].
  cbn [c_step] in E1. rewrite mbind_get, Fi, Fd in E1. destruct k.
  - injection E1 as <- _ _. cbn [c_step]. rewrite mbind_get. cbn [c_live cset_hname]. rewrite Fi. unfold finish. rewrite mbind_mod.
    apply held_on_hello. exact HX.
  - rewrite mbind_mod, mbind_get in E1. cbn [c_type cset_type] in E1. rewrite Ty in E1. injection E1 as <- _ _.
    cbn [c_step]. rewrite mbind_get. cbn [c_live cset_sname cset_type c_type]. rewrite Fi. unfold finish. rewrite mbind_mod. cbn [is_nack].
    apply held_on_sync. exact HX.
Qed.
Lemma fetches_step rule d w w' : fetches Kc rule d w w' -> duo_step K Kc rule w w'.
Proof.
  intros (i & k & m & buf & sc1 & sc2 & c1 & o1 & r1 & c2 & o2 & r2 & Fi & Cm & Hr & E1 & R1 & E2 & R2 & ->).
  eapply duo_fetch; eauto.
Qed.
Lemma producer_step rule e o w w' : pev_wf e -> producer_does K e o w w' -> duo_step K Kc rule w w'.
Proof. intros We (s & E & ->). eapply duo_producer; eauto. left. reflexivity. Qed.
Lemma run_trans rule a b c : duo_run K Kc rule a b -> duo_run K Kc rule b c -> duo_run K Kc rule a c.
Proof. intros A B. revert A. induction B as [x|x y z R IH St]; intros A; auto. eapply duo_next; [apply IH; exact A|exact St]. Qed.
Lemma same_content_name a b pre c v g : same_content a b -> (exists base s, d_name a = append_segment base s) ->
  d_name b = pre ++ [c; v; g] -> exists g', d_name a = pre ++ [c; v; g'].
Proof.
  unfold same_content. intros H (base & s & Ea) Eb. rewrite Ea, Eb in H. unfold append_segment in *.
  change (pre ++ [c; v; g]) with (pre ++ [c; v] ++ [g]) in H. rewrite app_assoc, !name_prefix_back_snoc in H. subst base.
  eexists. rewrite Ea, <- app_assoc. reflexivity.
Qed.
(** a segment of that content is no Nack *)
Lemma content_blob b0 S W w d d0 pre c v g : DI K Kc b0 S W w -> plain K w -> In d (du_sent w) -> same_content d d0 ->
  d_name d0 = pre ++ [c; v; g] -> ctype v = TYPE_VERSION -> d_type d = Blob.
Proof.
  intros [Dn Dr Dw Dc Dt] [P1 P2 P3 P4] Hd Sc En Tv. pose proof (history_wf _ Dw) as Wh. pose proof (differ_free K _ Wh P1) as Cf.
  destruct (producer_packets K (dk_scheme _ _ Ok2) (du_evs w) (du_prod w) (du_sent w) Dw Cf Dr) as (P & PI).
  destruct (pi_sent _ _ _ _ _ PI d Hd) as [(k & x & s & Hk & Hs & ->)|(rn & bf & t & cc & sg & f & Rq & Hc & ->)]; [reflexivity|].
  unfold same_content in Sc. rewrite En in Sc. cbn [d_name nack_data] in Sc. unfold append_segment in Sc.
  change (pre ++ [c; v; g]) with (pre ++ [c; v] ++ [g]) in Sc. rewrite app_assoc, !name_prefix_back_snoc in Sc.
  change (pre ++ [c; v]) with (pre ++ [c] ++ [v]) in Sc. rewrite app_assoc in Sc. apply app_inj_tail in Sc as [_ ->]. rewrite Tv in Hc. discriminate Hc.
Qed.
End Progress.
