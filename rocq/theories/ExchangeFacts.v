(** Facts about two full-sync nodes. *)
From Coq Require Import List NArith ZArith Bool Arith Lia.
From Verif Require Import Base BaseFacts Mon MonFacts Iblt SpecIblt IbltFacts PeelFacts HonestFacts IbltProps Tlv TlvFacts State
  NMap NMapFacts Codec CodecFacts Store StoreFacts SpecStore Properties_Store Producer SpecProducer ProducerFacts
  Properties_Producer Partial SpecPartial PartialFacts PartialSteps Full FullTrace SpecFull FullFacts FullSafe
  FullSteps FullData FullRuns FullReplies SpecExchange.
Import ListNotations.
Local Open Scope N_scope.

(** ** Knowledge *)
Definition kn (k : core) (p : name) : N := seq0 (get_seq p k).
Definition kfine (k : core) : Prop := pfx_ok (k_prefixes k).
Lemma kn_lt k p : kfine k -> kn k p < two64.
Proof.
  intros [_ B]. unfold kn, get_seq. destruct (nm_find p (k_prefixes k)) eqn:E; simpl; [eauto|reflexivity].
Qed.
Lemma kn_some k p : kn k p <> 0 -> get_seq p k = Some (kn k p).
Proof. unfold kn. destruct (get_seq p k); simpl; congruence. Qed.
Lemma kn_of k p v : get_seq p k = Some v -> kn k p = v.
Proof. unfold kn. intros ->. reflexivity. Qed.
Lemma live_kn k nm : kfine k -> (In nm (live k) <-> exists p, kn k p <> 0 /\ nm = append_number p (kn k p)).
Proof.
  intros [S _]. unfold live. rewrite live_names_In by auto. split.
  - intros (p & v & F & Z & ->). exists p. rewrite (kn_of k p v F). auto.
  - intros (p & Z & ->). exists p, (kn k p). split; [apply kn_some; auto|]. auto.
Qed.
Lemma live_NoDup k : kfine k -> NoDup (live k).
Proof. intros [S B]. apply live_names_NoDup; auto. Qed.
Lemma core_kfine n k : core_ok n k -> kfine k.
Proof. intros [S B _]. split; auto. Qed.
Lemma has_next_kn k nm : has_or_next k nm <-> exists p, kn k p <> 0 /\
  (nm = append_number p (kn k p) \/ nm = append_number p ((kn k p + 1) mod two64)).
Proof.
  split.
  - intros (p & v & F & Z & H). exists p. rewrite (kn_of k p v F). auto.
  - intros (p & Z & H). exists p, (kn k p). split; [apply kn_some; auto|]. auto.
Qed.

Lemma nm_find_nonzero (m : nmap N) p : nm_sorted m ->
  nm_find p (filter (fun x => negb (snd x =? 0)) m) =
  match nm_find p m with Some v => if v =? 0 then None else Some v | None => None end.
Proof.
  induction m as [|[q v] m IH]; intros S; [reflexivity|]. inversion S; subst. cbn [filter snd nm_find].
  assert (name_eqb p q = true -> nm_find p m = None) as Hn.
  { intros E. apply name_eqb_eq in E. subst q. apply nm_find_None. intros X.
    rewrite Forall_forall in H2. apply (name_lt_irrefl p). auto. }
  destruct (v =? 0) eqn:Z; cbn [negb].
  - destruct (name_eqb p q) eqn:E; [|apply IH; auto]. rewrite IH, (Hn eq_refl), Z by auto. reflexivity.
  - cbn [nm_find]. destruct (name_eqb p q) eqn:E; [rewrite Z; reflexivity|apply IH; auto].
Qed.
Lemma filter_sorted (m : nmap N) f : nm_sorted m -> nm_sorted (filter f m).
Proof.
  unfold nm_sorted. induction m as [|x m IH]; simpl; intros S; auto. inversion S; subst.
  destruct (f x); auto. simpl. constructor; auto.
  rewrite Forall_forall in *. intros y Hy. apply H2. apply in_map_iff in Hy as (z & <- & Hz).
  apply filter_In in Hz as [Hz _]. apply in_map. auto.
Qed.
Lemma live_ext k k' : kfine k -> kfine k' -> (forall p, kn k p = kn k' p) -> live k = live k'.
Proof.
  intros [S _] [S' _] H. unfold live, live_names. f_equal. apply nm_ext; try apply filter_sorted; auto.
  intros p. rewrite !nm_find_nonzero by auto. specialize (H p). unfold kn, get_seq in H.
  destruct (nm_find p (k_prefixes k)) as [v|], (nm_find p (k_prefixes k')) as [v'|]; simpl in H; subst; auto.
Qed.

(** ** Sums *)
Definition f0 (p : name) (m : nmap N) : N := match nm_find p m with Some v => v | None => 0 end.
Lemma f0_set p q v m : f0 p (nm_set q v m) = if name_eqb p q then v else f0 p m.
Proof. unfold f0. rewrite nm_find_set. destruct (name_eqb p q); reflexivity. Qed.
Lemma sum_set m p v : nm_sorted m -> sumN (map snd (nm_set p v m)) + f0 p m = sumN (map snd m) + v.
Proof. apply sumN_set. Qed.
Lemma sum_le m m' : nm_sorted m -> nm_sorted m' -> (forall p, f0 p m <= f0 p m') ->
  sumN (map snd m) <= sumN (map snd m').
Proof. intros. apply sumN_mono; auto. Qed.
Lemma sum_eq m m' : nm_sorted m -> nm_sorted m' -> (forall p, f0 p m <= f0 p m') ->
  sumN (map snd m') <= sumN (map snd m) -> forall p, f0 p m = f0 p m'.
Proof.
  intros S S' H Hs p. destruct (N.lt_ge_cases (f0 p m) (f0 p m')) as [Lt|Ge]; [|specialize (H p); lia].
  assert (sumN (map snd (nm_set p (f0 p m') m)) <= sumN (map snd m')) as X.
  { apply sum_le; auto; [apply nm_set_sorted; auto|]. intros q. rewrite f0_set. destruct (name_eqb q p) eqn:E; auto.
    apply name_eqb_eq in E. subst. reflexivity. }
  pose proof (sum_set m p (f0 p m') S). lia.
Qed.
Definition join (m m' : nmap N) : nmap N := fold_left (fun a x => nm_set (fst x) (N.max (f0 (fst x) a) (snd x)) a) m' m.
Lemma join_sorted m' : forall m, nm_sorted m -> nm_sorted (join m m').
Proof. induction m' as [|x m' IH]; intros m S; auto. apply IH. apply nm_set_sorted. auto. Qed.
Lemma join_sum m' : forall m, nm_sorted m -> sumN (map snd (join m m')) <= sumN (map snd m) + sumN (map snd m').
Proof.
  induction m' as [|[p v] m' IH]; intros m S; [simpl; lia|]. cbn [join fold_left fst snd] in *.
  etransitivity; [apply IH; apply nm_set_sorted; auto|].
  pose proof (sum_set m p (N.max (f0 p m) v) S). cbn [map snd]. rewrite sumN_cons. lia.
Qed.
Lemma join_ge m' : forall m p, f0 p m <= f0 p (join m m') /\ (forall v, In (p, v) m' -> v <= f0 p (join m m')).
Proof.
  induction m' as [|[q w] m' IH]; intros m p.
  - split; [reflexivity|intros v []].
  - cbn [join fold_left fst snd]. destruct (IH (nm_set q (N.max (f0 q m) w) m) p) as [A B].
    unfold join in *. rewrite f0_set in A. split.
    + destruct (name_eqb p q) eqn:E; auto. apply name_eqb_eq in E. subst. lia.
    + intros v [[= <- <-]|H]; [|apply B; auto]. rewrite name_eqb_refl in A. lia.
Qed.
Lemma total_max k a b : kfine k -> kfine a -> kfine b -> (forall p, kn k p <= N.max (kn a p) (kn b p)) ->
  total k <= total a + total b.
Proof.
  intros [S _] [Sa _] [Sb _] H. unfold total. etransitivity; [|apply join_sum; auto].
  apply sum_le; auto using join_sorted. intros p.
  destruct (join_ge (k_prefixes b) (k_prefixes a) p) as [A B].
  specialize (H p). unfold kn, get_seq in H. fold (f0 p (k_prefixes k)) in *.
  assert (f0 p (k_prefixes b) <= f0 p (join (k_prefixes a) (k_prefixes b))).
  { unfold f0 at 1. destruct (nm_find p (k_prefixes b)) as [v|] eqn:E; [|lia]. apply B. apply nm_find_In. auto. }
  unfold f0 in *. unfold seq0 in H. lia.
Qed.
Lemma total_same k k' : kfine k -> kfine k' -> (forall p, kn k p <= kn k' p) -> total k' <= total k ->
  forall p, kn k p = kn k' p.
Proof. intros [S _] [S' _] H Ht p. apply (sum_eq (k_prefixes k) (k_prefixes k')); auto. Qed.
Lemma total_le k k' : kfine k -> kfine k' -> (forall p, kn k p <= kn k' p) -> total k <= total k'.
Proof. intros [S _] [S' _] H. apply sum_le; auto. Qed.

(** ** The store of a node stays within its limit *)
Definition roomy (p : pub) : Prop := (0 < pb_limit p)%nat /\ (length (pb_store p) <= pb_limit p)%nat.
Definition room_rel (s : fp) (_ : list fout) (s' : fp) : Prop := roomy (f_pub s) -> roomy (f_pub s').
Lemma room_trans s o s1 o1 s2 : room_rel s o s1 -> room_rel s1 o1 s2 -> room_rel s (o ++ o1) s2.
Proof. unfold room_rel. auto. Qed.
Lemma publish_room E now i dn b f p : roomy p -> roomy (fst (publish E now i dn b f p)).
Proof.
  intros [L H]. unfold publish. cbn [fst]. rewrite insert_segments_eq. split; cbn [pb_limit pb_store]; auto.
  apply fold_insert_length; auto.
Qed.
Lemma filter_len {A} (f : A -> bool) l : (length (filter f l) <= length l)%nat.
Proof. induction l as [|x l IH]; simpl; auto. destruct (f x); simpl; lia. Qed.
Lemma fire_room now i p : roomy p -> roomy (pub_fire now i p).
Proof.
  intros [L H]. unfold pub_fire. destruct (nth_error _ i) as [[dl n]|]; [|split; auto].
  destruct (dl <=? now); split; auto. cbn [pb_store pb_limit]. unfold store_erase.
  etransitivity; [apply filter_len|auto].
Qed.
Lemma room_send K s : room_rel s (outs (send_sync_interest K s)) (st (send_sync_interest K s)).
Proof.
  intros H. rewrite send_eq. destruct (f_wait s); [exact H|].
  destruct (sync_name _ _) as [n|e|u|]; try (cbn [st fst]; rewrite stopped_pub; exact H).
  destruct (_ && _); cbn [st fst sent]; rewrite ?stopped_pub; try exact H.
  unfold sent. cbn. rewrite stopped_pub. exact H.
Qed.
Lemma room_closed K ok : closed K ok room_rel.
Proof.
  split; intros; try (intros ?X; exact X); try apply room_send.
  - eapply room_trans; eauto.
  - intros R. apply publish_room. exact R.
  - apply data_closed; intros; try (intros ?X; exact X).
    + eapply room_trans; eauto.
    + intros R. apply publish_room. exact R.
    + apply room_send.
  - apply start_closed; intros; try (intros ?X; exact X). eapply room_trans; eauto.
  - apply arm_closed; intros; try (intros ?X; exact X). eapply room_trans; eauto.
  - intros R. apply fire_room. exact R.
Qed.
Lemma room_events : closed_events room_rel.
Proof. split; intros; intros ?X; exact X. Qed.
Lemma step_room K e s : roomy (f_pub s) -> roomy (f_pub (st (fp_step K e s))).
Proof.
  intros H.
  assert (room_rel s (outs (fp_step K e s)) (st (fp_step K e s))) as R.
  { apply (tr_step K (fun _ => True) room_rel (room_closed K _)); auto; try apply room_events; try (intros; intros ?X; exact X).
    apply Forall_forall. auto. }
  exact (R H).
Qed.
Lemma reaches_room K sys evs s o : reaches K sys evs s o -> roomy (f_pub s).
Proof.
  revert s o. induction evs as [|e evs IH] using rev_ind; intros s o R.
  - apply reaches_nil in R as (n & _ & -> & _). unfold roomy. simpl. unfold IMS_LIMIT. lia.
  - apply reaches_inv in R as (s1 & o1 & R1 & _ & -> & _ & _). apply step_room. eauto.
Qed.

(** ** Interests and content travel *)
Lemma core_cells n k : core_ok n k -> Forall wf_cell (k_iblt k) /\ length (k_iblt k) = n_entries n.
Proof.
  intros Ck. pose proof (core_ok_ibf _ _ Ck) as I. apply IbfOf_cells in I as (L & _). split; auto.
  destruct (rep_ops _ _ _ _ (ok_rep _ _ Ck)) as (ops & R & Ks & _).
  eapply run_ops_cells_wf; [apply iblt_new_cells_wf|exact Ks|exact R].
Qed.
Lemma iblt_new_length n : length (iblt_new n) = n_entries n.
Proof. apply repeat_length. Qed.
Lemma asks_request Ka Kb k n : same_group Ka Kb -> lossless (fc_codec Ka) -> core_ok (fc_n Kb) k ->
  k_count k < two64 -> asks Kb k n -> full_request Ka n (k_iblt k) (k_count k).
Proof.
  intros (G1 & G2 & G3 & G4 & G5) Lo Ck Hc (c & (Ty & Co) & ->). destruct (core_cells _ _ Ck) as [W L].
  exists c, (number_comp TYPE_GENERIC (k_count k)). rewrite G1. split; [reflexivity|].
  split; [apply to_number_number; auto|]. rewrite G2, G3.
  unfold initialize. rewrite <- G5 in Co. rewrite (decompress_compress _ _ _ _ Lo Co).
  rewrite iblt_new_length, table_bytes_length, L. change ENTRY_SIZE with 12%nat. rewrite Nat.eqb_refl.
  rewrite <- L, <- (app_nil_r (table_bytes (k_iblt k))), table_load_bytes by assumption. reflexivity.
Qed.
Lemma nth_error_ext {A} (l l' : list A) : length l = length l' ->
  (forall i x, nth_error l i = Some x -> nth_error l' i = Some x) -> l = l'.
Proof.
  revert l'. induction l as [|a l IH]; intros [|b l'] L H; simpl in L; try discriminate; auto.
  pose proof (H 0%nat a eq_refl) as E. simpl in E. injection E as ->. f_equal. apply IH; [lia|].
  intros i x Hi. exact (H (S i) x Hi).
Qed.
Lemma fetched_content E now n c buf fresh p p' d ds buf' :
  publish E now (n ++ [number_comp TYPE_GENERIC c]) (n ++ [number_comp TYPE_GENERIC c]) buf fresh p = (p', Ok (d :: ds)) ->
  roomy p -> reply_from_store (n ++ [number_comp TYPE_GENERIC c]) p = None -> N.of_nat (length buf) < two64 ->
  fetched p' d buf' -> buf' = buf.
Proof.
  set (dn := n ++ [number_comp TYPE_GENERIC c]). intros P [Rl Rs] Hr Hb (base & segs & fc & last & S0 & Fi & Fl & Len & Nm & St & ->).
  assert (unshadowed (next_version E p dn) p) as Hu.
  { intros e He. unfold reply_from_store in Hr. rewrite store_find_None in Hr. specialize (Hr e He).
    destruct (is_prefix (next_version E p dn) (full_name e)) eqn:X; auto.
    apply is_prefix_iff in X as (r & X). rewrite X in Hr. unfold next_version in Hr.
    rewrite <- app_assoc, is_prefix_app in Hr. discriminate. }
  pose proof (publish_lookup _ _ _ _ _ _ _ _ _ P Rl Rs Hb Hu) as Lk.
  set (vn := next_version E p dn) in *.
  assert (d = seg_data E (pb_signed p) vn buf fresh 0) as Ed.
  { unfold publish in P. injection P as _ P. unfold put_segment in P.
    unfold dn in P at 1. rewrite name_get_back_snoc in P. cbn [obind] in P. 
    change (is_segment (number_comp TYPE_GENERIC c)) with false in P. cbn [obind] in P.
    rewrite segment_length in P. pose proof (nseg_bounds buf) as (B0 & _ & _).
    destruct (N.ltb_spec 0 (N.of_nat (nseg buf))); [|lia]. cbn [N.to_nat] in P.
    rewrite segment_nth in P by lia. injection P as <- _. reflexivity. }
  subst d. cbn [d_final seg_data] in Fi. injection Fi as <-. cbn [d_name seg_data] in Nm.
  apply (append_segment_inj vn base 0 0) in Nm as [<- _]; try reflexivity.
  assert (N.of_nat (nseg buf) <= two64) as Hn.
  { pose proof (nseg_bounds buf) as (_ & _ & Hz). pose proof SEG_SIZE_pos.
    destruct buf as [|b buf]; [discriminate|].
    assert (nseg (b :: buf) <= length (b :: buf))%nat; [|lia].
    assert (b :: buf <> []) as Hne by discriminate. specialize (Hz Hne). nia. }
  pose proof (nseg_bounds buf) as (B0 & _ & _).
  unfold to_segment in Fl. rewrite number_is_segment in Fl. injection Fl as Fl. cbn [cval number_comp] in Fl.
  rewrite nni_dec in Fl by lia.
  assert (length segs = nseg buf) as Ls by lia.
  rewrite (nth_error_ext segs (segment E (pb_signed p) vn buf fresh)); [apply segment_content|rewrite segment_length; auto|].
  intros i x Hi. assert (i < nseg buf)%nat as Hlt by (rewrite <- Ls; apply nth_error_Some; congruence).
  rewrite segment_nth by auto. destruct i as [|i]; [congruence|].
  pose proof (St (S i) x ltac:(lia) Hi) as X. rewrite (Lk (S i) Hlt) in X. destruct (Nat.leb _ _); [exact X|discriminate].
Qed.

(** ** What a node takes from content *)
Definition from_names (names : list name) (o : cop) : Prop :=
  match o with
  | CAdd _ => True
  | CUpdate p v => v < two64 /\ exists x, In (p ++ [x]) names /\ to_number x = Ok v
  | _ => False
  end.
Lemma from_names_mono l l' o : incl l l' -> from_names l o -> from_names l' o.
Proof. intros H. destruct o; simpl; auto. intros (A & x & B & C). eauto. Qed.
Lemma take_ops names : forall s s' o l, take_updates names s = (s', o, Ok l) ->
  Forall (from_names names) (ops_of o).
Proof.
  induction names as [|c names IH]; intros s s' o l; cbn [take_updates].
  - intros [= <- <- <-]. constructor.
  - rewrite mbind_lift. destruct (name_get_minus c 1) as [x|e|u|] eqn:Ex; try discriminate.
    rewrite mbind_lift. destruct (to_number x) as [v|e|u|] eqn:Ev; try discriminate. cbv zeta. rewrite mbind_get.
    assert (c = name_prefix_back c 1 ++ [x]) as Hc.
    { destruct c as [|y c _] using rev_ind; [discriminate|].
      rewrite name_get_minus_last in Ex. injection Ex as ->. rewrite name_prefix_back_snoc. reflexivity. }
    assert (forall s1 s2 o1 l1, take_updates names s1 = (s2, o1, Ok l1) ->
      Forall (from_names (c :: names)) (ops_of o1)) as Tail.
    { intros s1 s2 o1 l1 T. eapply Forall_impl; [|eapply IH; eauto]. intros a.
      apply from_names_mono. intros y Hy. right. exact Hy. }
    destruct (match get_seq _ _ with None => true | Some cur => cur <? v end); [|apply Tail].
    unfold mbind. destruct (prefix_seq _ s) as [[s1 o1] [cur|e|u|]] eqn:E1; try discriminate.
    destruct (fp_op _ s1) as [[s2 o2] [[]|e|u|]] eqn:E2; try discriminate.
    destruct (take_updates names s2) as [[s3 o3] [l3|e|u|]] eqn:T; try discriminate.
    intros [= <- <- <-]. rewrite ?app_nil_r, !ops_of_app. apply Forall_app. split.
    + apply prefix_seq_inv in E1 as [(w & _ & _ & -> & _)|(_ & -> & _ & _)]; repeat constructor.
    + apply Forall_app. split; [|eapply Tail; eauto].
      apply fp_op_inv in E2 as [(k & _ & Ek & _ & ->)|(_ & -> & Nr)]; [|constructor].
      constructor; [|constructor]. split; [eapply to_number_lt; eauto|]. exists x. rewrite <- Hc. split; [left|]; auto.
Qed.
(** every name received is known afterwards *)
Lemma take_covers names : forall s s' o l, pfx_ok (k_prefixes (f_core s)) -> take_updates names s = (s', o, Ok l) ->
  forall p v, In (append_number p v) names -> v < two64 -> v <= kn (f_core s') p.
Proof.
  induction names as [|c names IH]; intros s s' o l Hp E p v; [intros []|].
  destruct (take_inv (c :: names) s s' o (Ok l) Hp E) as (_ & _ & _ & S).
  destruct (S l eq_refl) as (Ch & _ & _).
  cbn [take_updates] in E. rewrite mbind_lift in E. destruct (name_get_minus c 1) as [x|e|u|] eqn:Ex; try discriminate.
  rewrite mbind_lift in E. destruct (to_number x) as [w|e|u|] eqn:Ev; try discriminate. cbv zeta in E. rewrite mbind_get in E.
  assert (c = name_prefix_back c 1 ++ [x]) as Hc.
  { destruct c as [|y c _] using rev_ind; [discriminate|].
    rewrite name_get_minus_last in Ex. injection Ex as ->. rewrite name_prefix_back_snoc. reflexivity. }
  set (q := name_prefix_back c 1) in *.
  intros [Hin|Hin] Hv.
  - assert (q = p /\ x = number_comp TYPE_GENERIC v) as [Eq ->].
    { rewrite Hc in Hin. unfold append_number in Hin. apply app_inj_tail in Hin. exact Hin. }
    rewrite to_number_number in Ev by auto. injection Ev as <-. rewrite Eq in *. clear Hc.
    destruct (match get_seq p (f_core s) with None => true | Some cur => cur <? v end) eqn:B.
    + unfold mbind in E. destruct (prefix_seq p s) as [[s1 o1] [cur|e|u|]] eqn:E1; try discriminate.
      destruct (fp_op _ s1) as [[s2 o2] [[]|e|u|]] eqn:E2; try discriminate.
      destruct (take_updates names s2) as [[s3 o3] [l3|e|u|]] eqn:T; try discriminate.
      injection E as <- <- <-. cbn [report_chain mi_low mi_prefix mi_high] in Ch. destruct Ch as (_ & _ & Ch).
      apply (report_chain_mono _ _ _ p) in Ch. cbv beta in Ch. rewrite name_eqb_refl in Ch. exact Ch.
    + apply (report_chain_mono _ _ _ p) in Ch. unfold kn. destruct (get_seq p (f_core s)) as [cur|]; [|discriminate].
      simpl in Ch. apply N.ltb_ge in B. lia.
  - destruct (match get_seq q (f_core s) with None => true | Some cur => cur <? w end).
    + unfold mbind in E. destruct (prefix_seq q s) as [[s1 o1] [cur|e|u|]] eqn:E1; try discriminate.
      destruct (fp_op _ s1) as [[s2 o2] [[]|e|u|]] eqn:E2; try discriminate.
      destruct (take_updates names s2) as [[s3 o3] [l3|e|u|]] eqn:T; try discriminate.
      injection E as <- <- <-. eapply IH; [|exact T|exact Hin|exact Hv].
      assert (pfx_ok (k_prefixes (f_core s1))) as P1.
      { apply prefix_seq_inv in E1 as [(y & _ & -> & _ & _)|(_ & _ & _ & ->)]; auto.
        eapply (cstep_pfx _ (CAdd q)); [exact Hp|exact I|reflexivity]. }
      apply fp_op_inv in E2 as [(k & _ & Ek & -> & _)|(_ & _ & Nr)]; [|congruence].
      eapply cstep_pfx; [exact P1| |exact Ek]. simpl. eapply to_number_lt; eauto.
    + eapply IH; eauto.
Qed.

Lemma content_step K i buf names s s' o' n : pfx_ok (k_prefixes (f_core s)) ->
  fetch_of i (f_live s) = Some n -> content_names K buf names ->
  fp_step K (FeContent i buf []) s = (s', o', Ok tt) ->
  Forall (from_names names) (ops_of o') /\
  forall p v, In (append_number p v) names -> v < two64 -> v <= kn (f_core s') p.
Proof.
  intros Hp F C E. pose proof (step_core K s (FeContent i buf [])) as Cr. rewrite E in Cr. cbn [outs st fst snd] in Cr.
  cbn [fp_step] in E. rewrite mbind_get, F, mbind_mod in E. set (s0 := fset_live _ s) in *.
  unfold on_sync_data, delete_pending in E. rewrite mbind_mod in E. set (s1 := fset_pending _ s0) in *.
  unfold content_names in C. rewrite C in E. unfold mbind at 1 in E.
  destruct (take_updates names s1) as [[s2 o2] [l|e|u|]] eqn:T; try discriminate.
  pose proof (take_ops _ _ _ _ _ T) as Fo. pose proof (take_covers names s1 s2 o2 l Hp T) as Co.
  destruct (take_inv names s1 s2 o2 (Ok l) Hp T) as (_ & _ & P2 & _).
  destruct l as [|m l].
  - unfold draw in E. rewrite mbind_mod, mbind_assoc, mbind_get, mbind_assoc, mbind_mod, mbind_ret in E.
    unfold mmod in E. injection E as <- <-. rewrite app_nil_r. auto.
  - rewrite mbind_emit in E.
    set (rest := (api_calls K [] ;; mlet j <- draw K;
        mmod (fun s => fset_wait false (fset_sched (Some (f_now s + j, KSend)) s)) ;; process_waiting K)) in *.
    assert (Forall (fun o => exists p, o = CAdd p) (ops_of (outs (rest s2)))) as Ra.
    { apply (tr_after K (fun o => exists p, o = CAdd p) (sop_rel (fun o => exists p, o = CAdd p)) (sop_closed K _)).
      - eauto.
      - constructor. }
    assert (core_rel s2 (outs (rest s2)) (st (rest s2))) as R2.
    { apply (tr_after K (fun _ => True) core_rel (core_rel_closed K)); auto. }
    injection E as <- <- _. rewrite ops_of_app. cbn [ops_of app]. split.
    + apply Forall_app. split; auto. eapply Forall_impl; [|exact Ra]. intros a (p & ->). exact I.
    + intros p v Hin Hv. etransitivity; [apply (Co p v Hin Hv)|]. unfold kn.
      unfold core_rel in R2. rewrite (get_seq_run p _ _ _ P2) with (2 := R2).
      2:{ eapply Forall_impl; [|exact Ra]. intros a (q & ->). exact I. }
      apply seq_fold_mono. intros q Hq. rewrite Forall_forall in Ra. destruct (Ra _ Hq) as (r & X). discriminate.
Qed.

(** whatever the application calls from its callback, short of removing prefixes *)
Lemma content_covers K i buf script names s s' o' n : pfx_ok (k_prefixes (f_core s)) ->
  Forall (fun a => cop_wf (api_op a)) script -> (forall p, ~ In (CRemove p) (map api_op script)) ->
  fetch_of i (f_live s) = Some n -> content_names K buf names ->
  fp_step K (FeContent i buf script) s = (s', o', Ok tt) ->
  (forall p, kn (f_core s) p <= kn (f_core s') p) /\
  forall p v, In (append_number p v) names -> v < two64 -> v <= kn (f_core s') p.
Proof.
  intros Hp Ws Hs F C E.
  cbn [fp_step] in E. rewrite mbind_get, F, mbind_mod in E. set (s0 := fset_live _ s) in *.
  unfold on_sync_data, delete_pending in E. rewrite mbind_mod in E. set (s1 := fset_pending _ s0) in *.
  unfold content_names in C. rewrite C in E. unfold mbind at 1 in E.
  destruct (take_updates names s1) as [[s2 o2] [l|e|u|]] eqn:T; try discriminate.
  pose proof (take_ops _ _ _ _ _ T) as Fo. pose proof (take_covers names s1 s2 o2 l Hp T) as Co.
  destruct (take_inv names s1 s2 o2 (Ok l) Hp T) as (_ & _ & P2 & _).
  assert (core_rel s1 o2 s2) as R1.
  { pose proof (tr_take K (fun _ => True) core_rel (core_rel_closed K) (fun _ => I) (fun _ _ _ => I) names s1) as X.
    unfold tr in X. rewrite T in X. exact X. }
  assert (forall p, kn (f_core s) p <= kn (f_core s2) p) as M1.
  { intros p. unfold kn. rewrite (get_seq_run p (ops_of o2) (f_core s) (f_core s2)); [|exact Hp| |exact R1].
    - apply seq_fold_mono. intros q Hq. rewrite Forall_forall in Fo. exact (Fo _ Hq).
    - eapply Forall_impl; [|exact Fo]. intros [| | |]; simpl; tauto. }
  destruct l as [|m l].
  - unfold draw in E. rewrite mbind_mod, mbind_assoc, mbind_get, mbind_assoc, mbind_mod, mbind_ret in E.
    unfold mmod in E. injection E as <- <-. auto.
  - rewrite mbind_emit in E.
    set (rest := (api_calls K script ;; mlet j <- draw K;
        mmod (fun s => fset_wait false (fset_sched (Some (f_now s + j, KSend)) s)) ;; process_waiting K)) in *.
    set (ok := fun o => cop_wf o /\ forall p, o <> CRemove p).
    assert (Forall ok (ops_of (outs (rest s2)))) as Ra.
    { apply (tr_after K ok (sop_rel ok) (sop_closed K _)).
      - intros p. split; [exact I|discriminate].
      - rewrite Forall_forall in *. intros a Ha. split; [auto|]. intros p Hq. apply (Hs p). rewrite <- Hq. apply in_map. auto. }
    assert (core_rel s2 (outs (rest s2)) (st (rest s2))) as R2.
    { apply (tr_after K (fun _ => True) core_rel (core_rel_closed K)); auto. apply Forall_forall. auto. }
    injection E as <- <- _.
    assert (forall p, kn (f_core s2) p <= kn (f_core (st (rest s2))) p) as M2.
    { intros p. unfold kn. unfold core_rel in R2. rewrite (get_seq_run p _ _ _ P2) with (2 := R2).
      2:{ eapply Forall_impl; [|exact Ra]. intros a H. apply H. }
      apply seq_fold_mono. intros q Hq. rewrite Forall_forall in Ra. destruct (Ra _ Hq) as [_ X]. exact (X q eq_refl). }
    split.
    + intros p. etransitivity; [apply M1|apply M2].
    + intros p v Hin Hv. etransitivity; [apply (Co p v Hin Hv)|apply M2].
Qed.

Lemma from_wf l o : from_names l o -> cop_wf o.
Proof. destruct o as [p|p|p v|p q]; simpl; tauto. Qed.
Lemma from_keeps l ops : Forall (from_names l) ops -> no_removal ops.
Proof. intros H p Hp. rewrite Forall_forall in H. exact (H _ Hp). Qed.
Lemma ops_effect names ops : forall k k', kfine k -> Forall (from_names names) ops -> crun k ops = Ok k' ->
  forall p, kn k p <= kn k' p /\
    (kn k' p = kn k p \/ exists x, In (p ++ [x]) names /\ to_number x = Ok (kn k' p)).
Proof.
  intros k k' Hk Ho Hr p. unfold kn.
  assert (Forall cop_wf ops) as W by (eapply Forall_impl; [|exact Ho]; intros a; apply from_wf).
  rewrite (get_seq_run p ops k k' Hk W Hr). generalize (get_seq p k) as c. clear Hr W Hk.
  induction ops as [|o ops IH]; intros c; [simpl; split; [lia|auto]|]. inversion Ho; subst. cbn [fold_left].
  destruct (IH H2 (seq_step p c o)) as [A B].
  assert (seq0 c <= seq0 (seq_step p c o) /\ (seq0 (seq_step p c o) = seq0 c \/
    exists x, In (p ++ [x]) names /\ to_number x = Ok (seq0 (seq_step p c o)))) as [A1 B1].
  { destruct o as [q|q|q v|q v]; try contradiction; cbn [seq_step].
    - destruct (name_eqb p q); [|split; [lia|auto]]. destruct c; simpl; split; auto; lia.
    - destruct (name_eqb p q) eqn:E; [|split; [lia|auto]]. apply name_eqb_eq in E. subst q.
      destruct c as [c|]; cbn [option_map seq0]; [|split; [lia|auto]]. split; [lia|].
      destruct (N.max_spec v c) as [[_ ->]|[_ ->]]; [auto|]. right. apply H1. }
  split; [lia|]. destruct B as [B|B]; auto. rewrite B. destruct B1 as [B1|B1]; auto.
Qed.
Lemma ops_core_ok m names (U : name -> Prop) ops : forall k k',
  core_ok m k -> Forall (from_names names) ops -> crun k ops = Ok k' -> hash_inj U ->
  (forall nm, In nm (live k) -> U nm) ->
  (forall p x v, In (p ++ [x]) names -> to_number x = Ok v -> v <> 0 -> U (append_number p v)) ->
  core_ok m k'.
Proof.
  induction ops as [|o ops IH]; intros k k' Ck Ho Hr Hu Hl Hn; [injection Hr as <-; auto|].
  inversion Ho; subst. cbn [crun] in Hr. apply obind_ok in Hr as (k1 & H3 & Hr).
  assert (kfine k) as Fk by (eapply core_kfine; eauto).
  assert (kfine k1) as Fk1 by (eapply cstep_pfx; [exact Fk|eapply from_wf; eauto|exact H3]).
  assert (forall nm, In nm (live k1) -> U nm) as Hl1.
  { intros nm Hnm. apply live_kn in Hnm as (p & Z & ->); auto.
    destruct (ops_effect names [o] k k1 Fk ltac:(constructor; auto) ltac:(cbn [crun]; rewrite H3; reflexivity) p)
      as [_ [E|(x & X & E)]].
    - rewrite E. apply Hl. apply live_kn; auto. exists p. rewrite <- E. auto.
    - eapply Hn; eauto. }
  assert (core_ok m k1) as Ck1.
  { eapply cstep_ok; [exact Ck|eapply from_wf; eauto|exact H3|].
    intros x y Hx Hy. apply Hu; apply Hl1; apply live_names_In; auto; apply Fk1. }
  eapply IH; eauto.
Qed.

(** ** A node *)
Record node (nr : Prop) (K : fcfg) (s : fp) : Prop := mkNode {
  no_hist : exists ops, Forall cop_wf ops /\ (nr -> no_removal ops) /\ crun (core_new (fc_n K)) ops = Ok (f_core s);
  no_core : core_ok (fc_n K) (f_core s);
  no_room : roomy (f_pub s) }.
Lemma node_fine nr K s : node nr K s -> kfine (f_core s).
Proof. intros [_ C _]. eapply core_kfine; eauto. Qed.
Lemma node_count nr K s : node nr K s -> k_count (f_core s) < two64.
Proof.
  intros [(ops & W & _ & R) _ _]. rewrite (C33_cumulative_count _ _ _ W R). apply N.mod_lt. discriminate.
Qed.
Lemma node_total (nr : Prop) K s : nr -> node nr K s -> total (f_core s) < two64 ->
  k_count (f_core s) = total (f_core s).
Proof.
  intros Hn [(ops & W & Nr & R) _ _] H. rewrite (C33_count_without_removals _ _ _ W (Nr Hn) R).
  apply N.mod_small. exact H.
Qed.
Lemma reaches_node (nr : Prop) K sys evs s o : reaches K sys evs s o -> no_collision K o -> (nr -> no_removal (ops_of o)) ->
  node nr K s.
Proof.
  intros R Nc Hn. split.
  - exists (ops_of o). apply reaches_core in R as [W C]. auto.
  - eapply reaches_core_ok; eauto.
  - eapply reaches_room; eauto.
Qed.
Lemma node_idle nr K s s' : idle K s s' -> node nr K s -> node nr K s' /\ f_core s' = f_core s.
Proof.
  induction 1 as [s|s e s1 o s2 E C I IH]; intros N; [auto|].
  destruct IH as [N2 C2]; [|split; [auto|congruence]]. destruct N as [H1 H2 H3]. rewrite <- C in H1, H2. split; auto.
  pose proof (step_room K e s H3) as X. rewrite E in X. exact X.
Qed.

(** ** One exchange *)
Lemma publish_data E now n c buf fresh p p' ds :
  publish E now (n ++ [number_comp TYPE_GENERIC c]) (n ++ [number_comp TYPE_GENERIC c]) buf fresh p = (p', Ok ds) ->
  ds <> [].
Proof.
  intros P. unfold publish in P. injection P as _ P. unfold put_segment in P.
  rewrite name_get_back_snoc in P. cbn [obind] in P.
  change (is_segment (number_comp TYPE_GENERIC c)) with false in P. cbn [obind] in P.
  rewrite segment_length in P. pose proof (nseg_bounds buf) as (B0 & _ & _).
  destruct (N.ltb_spec 0 (N.of_nat (nseg buf))); [|lia]. cbn [N.to_nat] in P.
  rewrite segment_nth in P by lia. injection P as <-. discriminate.
Qed.
Lemma in_live k p : kfine k -> kn k p <> 0 -> In (append_number p (kn k p)) (live k).
Proof. intros F Z. apply live_kn; auto. eauto. Qed.
Lemma live_has k nm : kfine k -> In nm (live k) -> has_or_next k nm.
Proof. intros F H. apply live_kn in H as (p & Z & ->); auto. apply has_next_kn. eauto. Qed.
Lemma live_num k p v : kfine k -> v < two64 -> In (append_number p v) (live k) -> kn k p = v /\ v <> 0.
Proof.
  intros F Hv H. apply live_kn in H as (q & Z & E); auto. apply append_number_inj in E as [-> ->]; auto using kn_lt.
Qed.
(** with distinct hashes, a name of one node whose hash the other has is a name of the other *)
Lemma hash_only ka kb nm : kfine ka -> kfine kb -> distinct_hashes ka kb -> has_or_next ka nm ->
  In (name_hash nm) (map name_hash (live kb)) -> In nm (live kb).
Proof.
  intros Fa Fb D Hn H. apply in_map_iff in H as (x & E & Hx).
  rewrite (D nm x); auto. right. apply live_has; auto.
Qed.

Definition newer (ka kb : core) (names : list name) : Prop :=
  NoDup names /\ incl names (live ka) /\
  forall p, kn kb p < kn ka p -> In (append_number p (kn ka p)) names.

Lemma newer_offer Ka ka kb d : kfine kb -> core_ok (fc_n Ka) ka -> distinct_hashes ka kb ->
  NoDup (positive d) ->
  (forall k, In k (positive d) <-> In k (map name_hash (live ka)) /\ ~ In k (map name_hash (live kb))) ->
  (forall k, In k (negative d) <-> In k (map name_hash (live kb)) /\ ~ In k (map name_hash (live ka))) ->
  newer ka kb (offer ka (negative d) (positive d)).
Proof.
  intros Fb Ca D Np Hp Hn. pose proof (core_kfine _ _ Ca) as Fa. split; [|split].
  - eapply offer_NoDup; eauto.
  - intros nm H. apply (offer_In (fc_n Ka)) in H as (p & v & G & Z & -> & _); auto.
    rewrite <- (kn_of _ _ _ G). apply in_live; auto. rewrite (kn_of _ _ _ G). auto.
  - intros p Lt. apply (offer_In (fc_n Ka)); auto. exists p, (kn ka p).
    assert (kn ka p <> 0) as Z by lia. split; [apply kn_some; auto|]. repeat split; auto.
    + apply Hp. split; [apply in_map; apply in_live; auto|]. intros X.
      apply (hash_only ka kb) in X; auto; [|apply has_next_kn; eauto].
      apply live_num in X as [X _]; auto using kn_lt. lia.
    + intros X. apply Hn in X as [X _]. apply (hash_only ka kb) in X; auto; [|apply has_next_kn; eauto].
      assert ((kn ka p + 1) mod two64 < two64) as M by (apply N.mod_lt; discriminate).
      apply live_num in X as [X Xz]; auto.
      destruct (N.eq_dec (kn ka p + 1) two64) as [Ew|Nw].
      * rewrite Ew in Xz. apply Xz. apply N.mod_same. discriminate.
      * rewrite N.mod_small in X; [lia|]. pose proof (kn_lt ka p Fa). lia.
Qed.
Lemma newer_live ka kb : kfine ka -> newer ka kb (live ka).
Proof.
  intros F. split; [apply live_NoDup; auto|]. split; [apply incl_refl|]. intros p H. apply in_live; auto. lia.
Qed.

(** content with everything newer makes the receiver know the maximum *)
Lemma took nr Kb ka b i n buf names b' o' : kfine ka -> node nr Kb b -> distinct_hashes ka (f_core b) ->
  newer ka (f_core b) names -> fetch_of i (f_live b) = Some n -> content_names Kb buf names ->
  fp_step Kb (FeContent i buf []) b = (b', o', Ok tt) ->
  node nr Kb b' /\ forall p, kn (f_core b') p = N.max (kn ka p) (kn (f_core b) p).
Proof.
  intros Fa Nb D (Nd & Il & Hn) F C E. pose proof (node_fine _ _ _ Nb) as Fb.
  destruct (content_step Kb i buf names b b' o' n Fb F C E) as [Fo Co].
  pose proof (step_core Kb b (FeContent i buf [])) as R. rewrite E in R. cbn [outs st fst snd] in R. unfold core_rel in R.
  pose proof (ops_effect names _ _ _ Fb Fo R) as Ef. split.
  - destruct Nb as [(ops & W & Nr & Rr) Ck Ro]. split.
    + exists (ops ++ ops_of o'). split; [apply Forall_app; split; auto; eapply Forall_impl; [|exact Fo]; intros x; apply from_wf|].
      split.
      * intros H p Hp. apply in_app_or in Hp as [Hp|Hp]; [exact (Nr H p Hp)|exact (from_keeps _ _ Fo p Hp)].
      * rewrite crun_app, Rr. exact R.
    + apply (ops_core_ok (fc_n Kb) names (fun nm => has_or_next ka nm \/ has_or_next (f_core b) nm) _ _ _ Ck Fo R).
      * intros x y Hx Hy He. apply D; auto.
      * intros nm H. right. apply live_has; auto.
      * intros p x v Hin Hx Hz. apply Il in Hin. apply live_kn in Hin as (q & Zq & Eq); auto.
        apply snoc_inj in Eq as [<- Ex]. subst x. rewrite to_number_number in Hx by (apply kn_lt; auto).
        injection Hx as <-. left. apply has_next_kn. eauto.
    + pose proof (step_room Kb (FeContent i buf []) b Ro) as X. rewrite E in X. exact X.
  - intros p. destruct (Ef p) as [G Hk]. apply N.le_antisymm.
    + destruct Hk as [->|(x & Hin & Hx)]; [lia|]. apply Il in Hin. apply live_kn in Hin as (q & Zq & Eq); auto.
      apply snoc_inj in Eq as [<- Ex]. subst x. rewrite to_number_number in Hx by (apply kn_lt; auto).
      injection Hx as <-. lia.
    + destruct (N.lt_ge_cases (kn (f_core b) p) (kn ka p)) as [Lt|Ge]; [|lia].
      specialize (Co p (kn ka p) (Hn p Lt) (kn_lt _ _ Fa)). lia.
Qed.

Definition refuses (K : fcfg) (k k' : core) : Prop :=
  exists d, iblt_sub (fc_fuel K) (k_iblt k) (k_iblt k') = Ok d /\ can_decode d = false /\
    (k_count k < k_count k' \/ (k_count k = k_count k' /\ positive d = [] /\ negative d <> [])).

Lemma answered_content Ka Kb now p p' n c names fresh d ds buf : same_group Ka Kb -> lossless (fc_codec Ka) ->
  answered Ka now p p' (n ++ [number_comp TYPE_GENERIC c]) names fresh (d :: ds) -> roomy p ->
  reply_from_store (n ++ [number_comp TYPE_GENERIC c]) p = None -> wf_names names ->
  (forall b, compress (fc_codec Ka) (fc_cscheme Ka) (encode_names names) = Ok b -> N.of_nat (length b) < two64) ->
  fetched p' d buf -> content_names Kb buf names.
Proof.
  intros (G1 & G2 & G3 & G4 & G5) Lo (b & Co & P) Ro Re W L F.
  rewrite (fetched_content _ _ _ _ _ _ _ _ _ _ _ P Ro Re (L _ Co) F).
  unfold content_names. rewrite <- G4, <- G5, (decompress_compress _ _ _ _ Lo Co). apply state_roundtrip. auto.
Qed.

Lemma live_hashes n k : core_ok n k -> NoDup (map name_hash (live k)).
Proof.
  intros Ck. assert (NoDup (live k)) as Nd by (apply live_NoDup; eapply core_kfine; eauto).
  assert (forall x y, In x (live k) -> In y (live k) -> name_hash x = name_hash y -> x = y) as Inj.
  { intros x y Hx Hy. destruct Ck as [S B R]. apply (rep_inj _ _ _ _ R); apply live_names_In; auto. }
  induction Nd as [|x l Hx Nl IH]; simpl; constructor.
  - intros H. apply in_map_iff in H as (y & E & Hy). assert (y = x) by (apply Inj; simpl; auto). subst. auto.
  - apply IH. intros; apply Inj; simpl; auto.
Qed.

(** what the asked node does *)
Lemma asked nr Ka Kb a b n l a0 o0 e : node nr Ka a -> node nr Kb b -> peers Ka Kb a b ->
  asks Kb (f_core b) n -> reply_from_store n (f_pub a) = None -> fp_step Ka (FeInterest n l) a = (a0, o0, e) ->
  node nr Ka a0 /\ f_core a0 = f_core a /\
  ((data_of o0 = [] /\ ((forall p, kn (f_core a) p <= kn (f_core b) p) \/ refuses Ka (f_core a) (f_core b))) \/
   exists names fresh, answered Ka (f_now a) (f_pub a) (f_pub a0) n names fresh (data_of o0) /\
     data_of o0 <> [] /\ newer (f_core a) (f_core b) names).
Proof.
  intros Na Nb [G Sk Lo [Ua Ub] D Se [Ex _]] As Hr St.
  pose proof (node_fine _ _ _ Na) as Fa. pose proof (node_fine _ _ _ Nb) as Fb.
  pose proof (no_core _ _ _ Na) as Ca. pose proof (no_core _ _ _ Nb) as Cb.
  assert (fc_n Kb = fc_n Ka) as Gn by (symmetry; apply G).
  destruct (iblt_sub_honest (fc_n Ka) (map name_hash (live (f_core a))) (map name_hash (live (f_core b)))
    (k_iblt (f_core a)) (k_iblt (f_core b)) (fc_fuel Ka)) as (d & Ed & _ & _ & _ & Hd).
  { eapply live_hashes; eauto. } { eapply live_hashes; eauto. }
  { apply core_ok_ibf; auto. } { rewrite <- Gn. apply core_ok_ibf; auto. } { apply Ex. } { apply Ex. }
    assert (full_request Ka n (k_iblt (f_core b)) (k_count (f_core b))) as Rq.
    { eapply asks_request; eauto. eapply node_count; eauto. }
    destruct As as (c & _ & ->).
    change (fc_sync Kb ++ [c; number_comp TYPE_GENERIC (k_count (f_core b))])
      with (fc_sync Kb ++ [c] ++ [number_comp TYPE_GENERIC (k_count (f_core b))]) in *.
    rewrite app_assoc in *. set (n0 := fc_sync Kb ++ [c]) in *.
    assert (roomy (f_pub a0)) as Ro.
    { pose proof (step_room Ka (FeInterest (n0 ++ [number_comp TYPE_GENERIC (k_count (f_core b))]) l) a (no_room _ _ _ Na)) as Y.
      rewrite St in Y. exact Y. }
    assert (f_core a0 = f_core a -> node nr Ka a0) as Nd.
    { intros Q. destruct Na as [H1 H2 H3]. rewrite <- Q in H1, H2. split; auto. }
    destruct (can_decode d) eqn:Cd.
    - destruct (decodable_reply Ka _ _ _ _ l d a Sk Ua Ca Rq Hr Ed Cd) as (s' & o' & E1 & Q & An).
      rewrite E1 in St. injection St as <- <- <-. split; [auto|]. split; [auto|].
      assert (newer (f_core a) (f_core b) (offer (f_core a) (negative d) (positive d))) as Nw.
      { destruct (Hd eq_refl) as [Hp Hn]. apply (newer_offer Ka); auto.
        apply nsorted_NoDup. apply (PartialFacts.iblt_sub_sorted _ _ _ _ Ed). }
      destruct (offer (f_core a) (negative d) (positive d)) as [|y ys].
      + destruct An as [-> _]. left. split; auto. left. intros p.
        destruct (N.lt_ge_cases (kn (f_core b) p) (kn (f_core a) p)) as [Lt|Ge]; auto.
        destruct Nw as (_ & _ & Nw). destruct (Nw p Lt).
      + destruct An as (ds & An & -> & _). right. exists (y :: ys), (fc_fresh Ka). split; auto. split; auto.
        destruct An as (bf & _ & P). eapply publish_data; eauto.
    - destruct (undecodable_reply Ka _ _ _ l d a Sk Rq Hr Ed Cd) as (s' & o' & E1 & Q & A1 & A2).
      rewrite E1 in St. injection St as <- <- <-. split; [auto|]. split; [auto|].
      assert (k_count (f_core a) < k_count (f_core b) \/
        (k_count (f_core a) = k_count (f_core b) /\ positive d = [] /\ negative d <> []) \/
        (k_count (f_core b) <= k_count (f_core a) /\ ~ (k_count (f_core a) = k_count (f_core b) /\ positive d = [] /\ negative d <> [])))
        as [Lt|[Eq|[Ge Ne]]].
      { destruct (N.lt_ge_cases (k_count (f_core a)) (k_count (f_core b))) as [|Ge]; auto. right.
        destruct (N.eq_dec (k_count (f_core a)) (k_count (f_core b))) as [Eq|Ne]; [|right; split; auto; tauto].
        destruct (positive d) as [|x xs]; [|right; split; auto; intros (_ & Y & _); discriminate].
        destruct (negative d) as [|x xs]; [right; split; auto; tauto|]. left. repeat split; auto. discriminate. }
      + destruct A1 as (-> & _); auto. left. split; auto. right. exists d. auto.
      + destruct A1 as (-> & _); auto. left. split; auto. right. exists d. auto.
      + destruct (live (f_core a)) as [|x xs] eqn:Lv.
        * destruct A1 as (-> & _); auto. left. split; auto. left. intros p.
          destruct (N.eq_dec (kn (f_core a) p) 0) as [->|Z]; [lia|].
          pose proof (in_live _ _ Fa Z) as Y. rewrite Lv in Y. destruct Y.
        * rewrite <- Lv in A2. destruct A2 as (ds & An & -> & _); auto; [rewrite Lv; discriminate|].
          right. exists (live (f_core a)), FULL_STATE_FRESH. split; auto. split; [|apply newer_live; auto].
          destruct An as (bf & _ & P). eapply publish_data; eauto.
Qed.

Lemma asked_content nr Ka Kb a b n now p' names fresh d ds buf : node nr Ka a -> peers Ka Kb a b ->
  asks Kb (f_core b) n -> reply_from_store n (f_pub a) = None ->
  answered Ka now (f_pub a) p' n names fresh (d :: ds) -> newer (f_core a) (f_core b) names ->
  fetched p' d buf -> content_names Kb buf names.
Proof.
  intros Na [G Sk Lo U D Se Ex] As Hr An (Nd & Il & _) Fe.
  destruct (Se names Nd) as [W L]; [intros y Hy; apply in_or_app; left; auto|].
  destruct As as (c & _ & ->).
  change (fc_sync Kb ++ [c; number_comp TYPE_GENERIC (k_count (f_core b))])
    with (fc_sync Kb ++ [c] ++ [number_comp TYPE_GENERIC (k_count (f_core b))]) in *.
  rewrite app_assoc in *.
  eapply answered_content; eauto. apply (no_room _ _ _ Na).
Qed.
Lemma ask_outcome nr Ka Kb a b a' b' : node nr Ka a -> node nr Kb b -> peers Ka Kb a b ->
  exchange Ka Kb a b a' b' ->
  node nr Ka a' /\ f_core a' = f_core a /\ node nr Kb b' /\
  ((forall p, kn (f_core b') p = N.max (kn (f_core a) p) (kn (f_core b) p)) \/
   (f_core b' = f_core b /\ refuses Ka (f_core a) (f_core b))).
Proof.
  intros Na Nb P X. pose proof (node_fine _ _ _ Na) as Fa.
  destruct X as [i n l a' o Hf As Hr St Do|i n l a' o d0 ds buf b1 b' o' Hf As Hr St Do Fe Id Hf1 St1].
  - destruct (asked nr Ka Kb a b _ _ _ _ _ Na Nb P As Hr St) as (N1 & Q & [[_ H]|(nms & fr & _ & H & _)]); [|contradiction].
    split; [auto|]. split; [auto|]. split; [auto|]. destruct H as [H|H]; auto. left. intros p. specialize (H p). lia.
  - destruct (asked nr Ka Kb a b _ _ _ _ _ Na Nb P As Hr St) as (N1 & Q & [[H _]|(nms & fr & An & _ & Nw)]); [congruence|].
    destruct (node_idle _ _ _ _ Id Nb) as [Nb1 Qb]. rewrite Do in An.
    pose proof (asked_content nr Ka Kb a b n _ _ _ _ _ _ _ Na P As Hr An Nw Fe) as Cn.
    pose proof (pe_distinct _ _ _ _ P) as D. rewrite <- Qb in Nw, D.
    destruct (took nr Kb (f_core a) b1 i n buf nms b' o') as [Nb' Hk]; auto.
    split; [auto|]. split; [auto|]. split; [auto|]. left. rewrite <- Qb. exact Hk.
Qed.

(** ** Two nodes *)
Definition tracks (A B a b : core) : Prop := forall p,
  (kn a p = kn A p /\ kn b p = kn B p) \/
  (kn a p = kn b p /\ kn a p = N.max (kn A p) (kn B p)).
Lemma tracks_refl a b : tracks a b a b. Proof. intros p. auto. Qed.
Lemma tracks_sym A B a b : tracks A B a b -> tracks B A b a.
Proof. intros H p. destruct (H p) as [[-> ->]|[E1 E2]]; [auto|]. right. lia. Qed.
Lemma tracks_left A B a b p : tracks A B a b -> kn a p = kn A p \/ kn a p = kn B p.
Proof. intros H. destruct (H p) as [[-> _]|[_ E]]; [auto|]. lia. Qed.
Lemma tracks_max A B a b p : tracks A B a b -> N.max (kn a p) (kn b p) = N.max (kn A p) (kn B p).
Proof. intros H. destruct (H p) as [[-> ->]|[E1 E2]]; lia. Qed.
Lemma tracks_b A B a b b' : tracks A B a b -> (forall p, kn b' p = N.max (kn a p) (kn b p)) -> tracks A B a b'.
Proof.
  intros H E p. rewrite E. destruct (H p) as [[E1 E2]|[E1 E2]].
  - rewrite E1, E2. destruct (N.max_spec (kn A p) (kn B p)) as [[L X]|[L X]]; rewrite X; auto.
  - right. lia.
Qed.

Lemma no_coincidence_incl d d' : incl d d' -> no_coincidence d' -> no_coincidence d.
Proof. intros I H l Nl Il L. apply H; auto. eapply incl_tran; eauto. Qed.
Lemma has_tracks A B a b nm : tracks A B a b -> has_or_next a nm -> has_or_next A nm \/ has_or_next B nm.
Proof.
  intros T H. apply has_next_kn in H as (p & Z & H). destruct (tracks_left _ _ _ _ p T) as [E|E]; rewrite E in *;
  [left|right]; apply has_next_kn; eauto.
Qed.
Lemma live_tracks A B a b : kfine A -> kfine B -> kfine a -> tracks A B a b -> incl (live a) (live A ++ live B).
Proof.
  intros FA FB Fa T nm H. apply live_kn in H as (p & Z & ->); auto. apply in_or_app.
  destruct (tracks_left _ _ _ _ p T) as [E|E]; rewrite E in *; [left|right]; apply in_live; auto.
Qed.
Lemma distinct_sym a b : distinct_hashes a b -> distinct_hashes b a.
Proof. intros D x y Hx Hy. apply D; tauto. Qed.
Lemma distinct_tracks A B a b : tracks A B a b -> distinct_hashes A B -> distinct_hashes a b.
Proof.
  intros T D x y Hx Hy E. apply D; auto.
  - destruct Hx as [Hx|Hx]; [eapply has_tracks; eauto|]. apply or_comm. eapply has_tracks; [apply tracks_sym|]; eauto.
  - destruct Hy as [Hy|Hy]; [eapply has_tracks; eauto|]. apply or_comm. eapply has_tracks; [apply tracks_sym|]; eauto.
Qed.
(** names known on one side only were so from the start *)
Lemma only_tracks A B a b h : kfine A -> kfine B -> kfine a -> kfine b -> tracks A B a b -> distinct_hashes A B ->
  In h (map name_hash (live a)) -> ~ In h (map name_hash (live b)) ->
  In h (map name_hash (live A)) /\ ~ In h (map name_hash (live B)).
Proof.
  intros FA FB Fa Fb T D Ha Nb. apply in_map_iff in Ha as (nm & <- & Ha). apply live_kn in Ha as (p & Z & ->); auto.
  destruct (T p) as [[E1 E2]|[E1 E2]].
  - split.
    + apply in_map. rewrite E1. apply in_live; auto. congruence.
    + intros X. apply (hash_only A B) in X; auto.
      * apply live_num in X as [X _]; auto using kn_lt. apply Nb.
        apply in_map. replace (kn a p) with (kn b p) by congruence. apply in_live; auto. congruence.
      * apply has_next_kn. exists p. rewrite <- E1. auto.
  - destruct Nb. apply in_map. rewrite E1. apply in_live; auto. congruence.
Qed.
Lemma exact_tracks K nA nB n1 n2 A B a b : core_ok nA A -> core_ok nB B -> core_ok n1 a -> core_ok n2 b ->
  tracks A B a b -> distinct_hashes A B ->
  exact_diff K A (map name_hash (live B)) -> exact_diff K a (map name_hash (live b)).
Proof.
  intros CA CB Ca Cb T D [Nc L].
  pose proof (core_kfine _ _ CA). pose proof (core_kfine _ _ CB). pose proof (core_kfine _ _ Ca). pose proof (core_kfine _ _ Cb).
  assert (incl (signed_diff (map name_hash (live a)) (map name_hash (live b)))
               (signed_diff (map name_hash (live A)) (map name_hash (live B)))) as I.
  { intros [z h] Hz. apply signed_diff_In in Hz. apply signed_diff_In.
    destruct Hz as [(-> & Hz & Hn)|(-> & Hz & Hn)]; [left|right]; split; auto.
    - apply (only_tracks A B a b h); auto.
    - apply (only_tracks B A b a h); auto using tracks_sym, distinct_sym. }
  split; [eapply no_coincidence_incl; eauto|].
  eapply Nat.le_lt_trans; [|exact L]. apply NoDup_incl_length; auto.
  eapply NoDup_map_inv. apply signed_diff_keys; eapply live_hashes; eauto.
Qed.
Lemma peers_sym Ka Kb a b : peers Ka Kb a b -> peers Kb Ka b a.
Proof.
  intros [(G1 & G2 & G3 & G4 & G5) [S1 S2] Lo [Ua Ub] D Se [E1 E2]]. split; auto.
  - repeat split; auto.
  - split; rewrite <- ?G3, <- ?G4, <- ?G5; auto.
  - rewrite <- G5. auto.
  - apply distinct_sym. auto.
  - intros l Nl Il. rewrite <- G4, <- G5. apply Se; auto. intros x Hx. apply Il in Hx. apply in_app_or in Hx. apply in_or_app. tauto.
Qed.
Lemma peers_tracks nr Ka Kb a b a' b' : node nr Ka a -> node nr Kb b -> node nr Ka a' -> node nr Kb b' ->
  tracks (f_core a) (f_core b) (f_core a') (f_core b') -> peers Ka Kb a b -> peers Ka Kb a' b'.
Proof.
  intros Na Nb Na' Nb' T [G Sk Lo U D Se [E1 E2]].
  pose proof (node_fine _ _ _ Na). pose proof (node_fine _ _ _ Nb). pose proof (node_fine _ _ _ Na'). pose proof (node_fine _ _ _ Nb').
  split; auto.
  - eapply distinct_tracks; eauto.
  - intros l Nl Il. apply Se; auto. intros x Hx. apply Il in Hx. apply in_app_or in Hx as [Hx|Hx].
    + apply (live_tracks (f_core a) (f_core b) (f_core a') (f_core b')); auto.
    + apply tracks_sym in T. apply (live_tracks (f_core b) (f_core a) (f_core b') (f_core a')) in Hx; auto.
      apply in_app_or in Hx. apply in_or_app. tauto.
  - split.
    + eapply (exact_tracks Ka _ _ _ _ (f_core a) (f_core b)); eauto using no_core.
    + eapply (exact_tracks Kb _ _ _ _ (f_core b) (f_core a)); eauto using no_core, tracks_sym, distinct_sym.
Qed.

(** a node that knows the maximum does not refuse *)
Lemma refuses_top Ka (a b : fp) : node True Ka a -> node True Ka b -> (forall p, kn (f_core b) p <= kn (f_core a) p) ->
  total (f_core a) < two64 -> refuses Ka (f_core a) (f_core b) -> forall p, kn (f_core b) p = kn (f_core a) p.
Proof.
  intros Na Nb H T (d & _ & _ & R).
  pose proof (node_fine _ _ _ Na) as Fa. pose proof (node_fine _ _ _ Nb) as Fb.
  pose proof (total_le _ _ Fb Fa H) as L.
  rewrite (node_total True _ _ I Na), (node_total True _ _ I Nb) in R by lia.
  apply total_same; auto. destruct R as [R|[R _]]; lia.
Qed.
Lemma refuses_both Ka Kb a b : refuses Ka a b -> refuses Kb b a -> False.
Proof.
  intros (d & E & _ & R) (d' & E' & _ & R').
  assert (k_count a = k_count b) as Q by (destruct R as [R|[R _]], R' as [R'|[R' _]]; lia).
  destruct R as [R|(_ & P & N)]; [lia|]. destruct R' as [R'|(_ & P' & N')]; [lia|].
  destruct (iblt_sub_antisym _ _ _ _ E) as [X|X].
  - apply (iblt_sub_mono _ (fc_fuel Ka + fc_fuel Kb)%nat) in E', X; try lia. rewrite E' in X. injection X as ->.
    cbn [positive negative] in *. contradiction.
  - destruct (iblt_sub_ok_or_hang _ (fc_fuel Ka) _ _ _ E') as [Y|Y]; congruence.
Qed.

Record pair_inv (Ka Kb : fcfg) (A B : fp) (x : fp * fp) : Prop := mkPair {
  pi_a : node True Ka (fst x);
  pi_b : node True Kb (snd x);
  pi_tracks : tracks (f_core A) (f_core B) (f_core (fst x)) (f_core (snd x)) }.
Definition top (A B : fp) (s : fp) : Prop := forall p, kn (f_core s) p = N.max (kn (f_core A) p) (kn (f_core B) p).
Definition phase1 Ka A B (x : fp * fp) : Prop :=
  refuses Ka (f_core (fst x)) (f_core (snd x)) \/ top A B (snd x) \/ top A B (fst x).
Section Pair.
Context (Ka Kb : fcfg) (A B : fp).
Context (NA : node True Ka A) (NB : node True Kb B) (P : peers Ka Kb A B).
Context (Hsum : forall k, kfine k -> (forall p, kn k p <= N.max (kn (f_core A) p) (kn (f_core B) p)) -> total k < two64).
Lemma node_group nr Ka' Kb' s : fc_n Ka' = fc_n Kb' -> node nr Ka' s -> node nr Kb' s.
Proof. intros E [H1 H2 H3]. rewrite E in H1, H2. split; auto. Qed.
Lemma ask_inv x y : pair_inv Ka Kb A B x -> exchange Ka Kb (fst x) (snd x) (fst y) (snd y) ->
  pair_inv Ka Kb A B y /\ f_core (fst y) = f_core (fst x) /\
  (top A B (snd y) \/ (f_core (snd y) = f_core (snd x) /\ refuses Ka (f_core (fst x)) (f_core (snd x)))).
Proof.
  intros [Na Nb T] X.
  destruct (ask_outcome True Ka Kb _ _ _ _ Na Nb (peers_tracks _ _ _ _ _ _ _ NA NB Na Nb T P) X) as (Na' & Q & Nb' & O).
  split.
  - split; auto. rewrite Q. destruct O as [O|[-> _]]; auto. eapply tracks_b; eauto.
  - split; auto. destruct O as [O|O]; auto. left. intros p. rewrite O. apply tracks_max. auto.
Qed.
Lemma tops_not x : pair_inv Ka Kb A B x -> top A B (fst x) -> refuses Ka (f_core (fst x)) (f_core (snd x)) -> top A B (snd x).
Proof.
  intros [Na Nb T] Ht R p. rewrite <- Ht. apply (refuses_top Ka); auto.
  - apply (node_group _ Kb); auto. symmetry. apply (pe_group _ _ _ _ P).
  - intros q. rewrite Ht, <- (tracks_max _ _ _ _ q T). lia.
  - apply Hsum; [eapply node_fine; eauto|]. intros q. rewrite Ht. lia.
Qed.
End Pair.
Lemma swap_inv Ka Kb A B x y : pair_inv Ka Kb A B (x, y) -> pair_inv Kb Ka B A (y, x).
Proof. intros [Na Nb T]. split; auto. apply tracks_sym. auto. Qed.
Lemma swap_top A B s : top A B s -> top B A s.
Proof. intros H p. rewrite H. lia. Qed.

Section Moves.
Context (Ka Kb : fcfg) (A B : fp).
Context (NA : node True Ka A) (NB : node True Kb B) (P : peers Ka Kb A B).
Context (Hsum : forall k, kfine k -> (forall p, kn k p <= N.max (kn (f_core A) p) (kn (f_core B) p)) -> total k < two64).
Let Hsum' : forall k, kfine k -> (forall p, kn k p <= N.max (kn (f_core B) p) (kn (f_core A) p)) -> total k < two64.
Proof. intros k F H. apply Hsum; auto. intros p. rewrite N.max_comm. auto. Qed.
Let inv := pair_inv Ka Kb A B.
Lemma back_inv x y : inv x -> exchange Kb Ka (snd x) (fst x) (snd y) (fst y) ->
  inv y /\ f_core (snd y) = f_core (snd x) /\
  (top A B (fst y) \/ (f_core (fst y) = f_core (fst x) /\ refuses Kb (f_core (snd x)) (f_core (fst x)))).
Proof.
  intros I X. destruct x as [a b], y as [a' b'].
  destruct (ask_inv Kb Ka B A NB NA (peers_sym _ _ _ _ P) (b, a) (b', a')) as (I' & Q & O); auto.
  { apply swap_inv; auto. }
  split; [apply swap_inv; auto|]. split; auto. destruct O as [O|O]; auto. left. apply swap_top. auto.
Qed.
Lemma tops_not_b x : inv x -> top A B (snd x) -> refuses Kb (f_core (snd x)) (f_core (fst x)) -> top A B (fst x).
Proof.
  intros I H R. destruct x as [a b]. apply swap_top.
  apply (tops_not Kb Ka B A (peers_sym _ _ _ _ P) Hsum' (b, a)); auto; [apply swap_inv; auto|apply swap_top; auto].
Qed.
Lemma move_inv m x y : inv x -> move_step Ka Kb m x y -> inv y.
Proof.
  intros I H. destruct m; cbn [move_step] in H.
  - destruct H as [H E]. destruct I as [Na Nb T]. destruct (node_idle _ _ _ _ H Na) as [N' Q]. split; rewrite ?E, ?Q; auto.
  - destruct H as [H E]. destruct I as [Na Nb T]. destruct (node_idle _ _ _ _ H Nb) as [N' Q]. split; rewrite ?E, ?Q; auto.
  - eapply ask_inv; eauto.
  - eapply back_inv; eauto.
Qed.
Lemma top_core s s' : f_core s' = f_core s -> top A B s -> top A B s'.
Proof. intros E H p. rewrite E. auto. Qed.
Lemma idle_core K s s' : idle K s s' -> f_core s' = f_core s.
Proof. induction 1; congruence. Qed.
(** one who knows the maximum keeps knowing it *)
Lemma move_top_a m x y : inv x -> move_step Ka Kb m x y -> top A B (fst x) -> top A B (fst y).
Proof.
  intros I H T. destruct m; cbn [move_step] in H.
  - destruct H as [H _]. eapply top_core; [eapply idle_core; eauto|auto].
  - destruct H as [_ E]. rewrite E. auto.
  - destruct (ask_inv _ _ _ _ NA NB P x y I H) as (_ & Q & _). eapply top_core; eauto.
  - destruct (back_inv x y I H) as (_ & _ & [O|[Q _]]); auto. eapply top_core; eauto.
Qed.
Lemma move_top_b m x y : inv x -> move_step Ka Kb m x y -> top A B (snd x) -> top A B (snd y).
Proof.
  intros I H T. destruct m; cbn [move_step] in H.
  - destruct H as [_ E]. rewrite E. auto.
  - destruct H as [H _]. eapply top_core; [eapply idle_core; eauto|auto].
  - destruct (ask_inv _ _ _ _ NA NB P x y I H) as (_ & _ & [O|[Q _]]); auto. eapply top_core; eauto.
  - destruct (back_inv x y I H) as (_ & Q & _). eapply top_core; eauto.
Qed.
Lemma ask_phase1 x y : inv x -> move_step Ka Kb BasksA x y -> phase1 Ka A B y.
Proof.
  intros I H. destruct (ask_inv _ _ _ _ NA NB P x y I H) as (_ & Qa & [O|[Q R]]); [right; left; auto|].
  left. rewrite Qa, Q. auto.
Qed.
Lemma back_phase2 x y : inv x -> move_step Ka Kb AasksB x y -> phase1 Ka A B x -> top A B (fst y).
Proof.
  intros I H Ph. destruct (back_inv x y I H) as (_ & _ & [O|[Q R]]); auto.
  destruct Ph as [Ph|[Ph|Ph]].
  - destruct (refuses_both _ _ _ _ Ph R).
  - eapply top_core; [exact Q|]. apply tops_not_b; auto.
  - eapply top_core; eauto.
Qed.
Lemma move_phase1 m x y : inv x -> move_step Ka Kb m x y -> phase1 Ka A B x -> phase1 Ka A B y.
Proof.
  intros I H [Ph|[Ph|Ph]].
  - destruct m; cbn [move_step] in H.
    + destruct H as [H E]. left. rewrite E, (idle_core _ _ _ H). auto.
    + destruct H as [H E]. left. rewrite E, (idle_core _ _ _ H). auto.
    + apply (ask_phase1 x); auto.
    + right; right. apply (back_phase2 x); auto. left. auto.
  - right; left. eapply move_top_b; eauto.
  - right; right. eapply move_top_a; eauto.
Qed.
Lemma ask_phase3 x y : inv x -> move_step Ka Kb BasksA x y -> top A B (fst x) -> top A B (snd y).
Proof.
  intros I H T. destruct (ask_inv _ _ _ _ NA NB P x y I H) as (_ & Qa & [O|[Q R]]); auto.
  eapply top_core; [exact Q|]. eapply tops_not; eauto.
Qed.
Lemma moves_inv l : forall x y, inv x -> moves Ka Kb l x y -> inv y.
Proof. induction l as [|m l IH]; intros x y I; [intros ->; auto|]. intros (z & H & M). eapply IH; [eapply move_inv|]; eauto. Qed.
Lemma moves_top_a l : forall x y, inv x -> moves Ka Kb l x y -> top A B (fst x) -> top A B (fst y).
Proof.
  induction l as [|m l IH]; intros x y I; [intros ->; auto|]. intros (z & H & M) T.
  eapply (IH z); [eapply move_inv; eauto|auto|eapply move_top_a; eauto].
Qed.
Lemma moves_top_b l : forall x y, inv x -> moves Ka Kb l x y -> top A B (snd x) -> top A B (snd y).
Proof.
  induction l as [|m l IH]; intros x y I; [intros ->; auto|]. intros (z & H & M) T.
  eapply (IH z); [eapply move_inv; eauto|auto|eapply move_top_b; eauto].
Qed.
Lemma moves_phase1 l : forall x y, inv x -> moves Ka Kb l x y -> phase1 Ka A B x -> phase1 Ka A B y.
Proof.
  induction l as [|m l IH]; intros x y I; [intros ->; auto|]. intros (z & H & M) T.
  eapply (IH z); [eapply move_inv; eauto|auto|eapply move_phase1; eauto].
Qed.
Lemma moves_1 l : forall x y, inv x -> moves Ka Kb l x y -> In BasksA l -> phase1 Ka A B y.
Proof.
  induction l as [|m l IH]; intros x y I; [intros _ []|]. intros (z & H & M) [->|X].
  - eapply moves_phase1; [|exact M|eapply ask_phase1; eauto]. eapply move_inv; eauto.
  - eapply (IH z); eauto. eapply move_inv; eauto.
Qed.
Lemma moves_2 l : forall x y, inv x -> moves Ka Kb l x y -> In AasksB l -> phase1 Ka A B x -> top A B (fst y).
Proof.
  induction l as [|m l IH]; intros x y I; [intros _ []|]. intros (z & H & M) [->|X] Ph.
  - eapply moves_top_a; [|exact M|eapply back_phase2; eauto]. eapply move_inv; eauto.
  - eapply (IH z); eauto; [eapply move_inv|eapply move_phase1]; eauto.
Qed.
Lemma moves_3 l : forall x y, inv x -> moves Ka Kb l x y -> In BasksA l -> top A B (fst x) -> top A B (snd y).
Proof.
  induction l as [|m l IH]; intros x y I; [intros _ []|]. intros (z & H & M) [->|X] T.
  - eapply moves_top_b; [|exact M|eapply ask_phase3; eauto]. eapply move_inv; eauto.
  - eapply (IH z); eauto; [eapply move_inv|eapply move_top_a]; eauto.
Qed.
Lemma meeting_tops y : meeting Ka Kb (A, B) y -> inv y /\ top A B (fst y) /\ top A B (snd y).
Proof.
  intros (l1 & l2 & l3 & x1 & x2 & M1 & M2 & M3 & I1 & I2 & I3).
  assert (inv (A, B)) as I0 by (split; auto; apply tracks_refl).
  assert (inv x1) as J1 by (eapply moves_inv; eauto). assert (inv x2) as J2 by (eapply moves_inv; eauto).
  pose proof (moves_1 _ _ _ I0 M1 I1) as Ph. pose proof (moves_2 _ _ _ J1 M2 I2 Ph) as T.
  split; [eapply moves_inv; eauto|]. split; [eapply moves_top_a; eauto|eapply moves_3; eauto].
Qed.
End Moves.

(** ** A group *)
Lemma sumN_app a b : sumN (a ++ b) = sumN a + sumN b.
Proof. induction a as [|x a IH]; [reflexivity|]. cbn [app]. rewrite !sumN_cons, IH. lia. Qed.
Lemma total_group (g : nat -> fp) m k : (forall j, (j < m)%nat -> kfine (f_core (g j))) -> kfine k ->
  (forall p, kn k p = 0 \/ exists j, (j < m)%nat /\ kn k p <= kn (f_core (g j)) p) ->
  total k <= sumN (map (fun i => total (f_core (g i))) (seq 0 m)).
Proof.
  intros Hg [S _] H.
  assert (exists M, nm_sorted M /\ sumN (map snd M) <= sumN (map (fun i => total (f_core (g i))) (seq 0 m)) /\
    forall j p, (j < m)%nat -> f0 p (k_prefixes (f_core (g j))) <= f0 p M) as (M & SM & LM & GM).
  { clear H. induction m as [|m IH].
    - exists []. split; [constructor|]. split; [simpl; lia|]. intros; lia.
    - destruct IH as (M & SM & LM & GM); [intros; apply Hg; lia|]. exists (join M (k_prefixes (f_core (g m)))).
      split; [apply join_sorted; auto|]. split.
      + etransitivity; [apply join_sum; auto|]. rewrite seq_S, map_app, sumN_app. cbn [map plus].
        rewrite sumN_cons. change (sumN []) with 0. unfold total at 2. lia.
      + intros j p Hj. destruct (join_ge (k_prefixes (f_core (g m))) M p) as [A B].
        destruct (Nat.eq_dec j m) as [->|Ne]; [|etransitivity; [apply GM; lia|auto]].
        unfold f0 at 1. destruct (nm_find p (k_prefixes (f_core (g m)))) as [v|] eqn:E; [|lia]. apply B. apply nm_find_In. auto. }
  etransitivity; [|exact LM]. unfold total. apply sum_le; auto. intros p.
  change (kn k p <= f0 p M). destruct (H p) as [->|(j & Hj & L)]; [lia|]. etransitivity; [exact L|]. apply GM. auto.
Qed.

Record ginv (K : nat -> fcfg) (m : nat) (g0 g : nat -> fp) : Prop := mkGinv {
  gi_node : forall i, (i < m)%nat -> node True (K i) (g i);
  gi_from : forall i p, (i < m)%nat -> exists j, (j < m)%nat /\ kn (f_core (g i)) p = kn (f_core (g0 j)) p;
  gi_mono : forall i p, (i < m)%nat -> kn (f_core (g0 i)) p <= kn (f_core (g i)) p }.
Section Group.
Context (K : nat -> fcfg) (m : nat) (g0 : nat -> fp).
Context (N0 : forall i, (i < m)%nat -> node True (K i) (g0 i)) (G : group K m g0).
Lemma ginv_has g i nm : ginv K m g0 g -> (i < m)%nat -> has_or_next (f_core (g i)) nm -> held_or_next m g0 nm.
Proof.
  intros [Nd Fr _] Hi H. apply has_next_kn in H as (p & Z & H). destruct (Fr i p Hi) as (j & Hj & E). rewrite E in *.
  exists j. split; auto. apply has_next_kn. eauto.
Qed.
Lemma ginv_live g i nm : ginv K m g0 g -> (i < m)%nat -> In nm (live (f_core (g i))) -> held m g0 nm.
Proof.
  intros [Nd Fr _] Hi H. apply live_kn in H as (p & Z & ->); [|eapply node_fine; eauto].
  destruct (Fr i p Hi) as (j & Hj & E). rewrite E in *. exists j. split; auto. apply in_live; auto. eapply node_fine; eauto.
Qed.
Lemma ginv_exact g i j : ginv K m g0 g -> (i < m)%nat -> (j < m)%nat ->
  exact_diff (K i) (f_core (g i)) (map name_hash (live (f_core (g j)))).
Proof.
  intros I Hi Hj. apply (gr_exact _ _ _ G); auto.
  - apply signed_diff_keys; eapply live_hashes; eapply no_core; apply (gi_node _ _ _ _ I); auto.
  - intros s h H. apply signed_diff_In in H as [(-> & H & _)|(-> & H & _)]; split; auto;
    apply in_map_iff in H as (nm & <- & H); exists nm; split; auto; solve [apply (ginv_live g i); auto | apply (ginv_live g j); auto].
Qed.
Lemma ginv_peers g i j : ginv K m g0 g -> (i < m)%nat -> (j < m)%nat -> peers (K i) (K j) (g i) (g j).
Proof.
  intros I Hi Hj. destruct G as [G1 G2 G3 G4 G5 G6 G7 G8]. split; auto.
  - intros x y Hx Hy. apply G5; [destruct Hx|destruct Hy]; solve [apply (ginv_has g i); auto | apply (ginv_has g j); auto].
  - intros l Nl Il. apply G6; auto. intros nm Hn. apply Il in Hn. apply in_app_or in Hn as [Hn|Hn]; solve [apply (ginv_live g i); auto | apply (ginv_live g j); auto].
  - split; apply ginv_exact; auto.
Qed.
Lemma ginv_step g i j a' b' : ginv K m g0 g -> (i < m)%nat -> (j < m)%nat -> i <> j ->
  meeting (K i) (K j) (g i, g j) (a', b') ->
  let g' := fun x => if Nat.eqb x i then a' else if Nat.eqb x j then b' else g x in
  ginv K m g0 g' /\ (forall x p, (x < m)%nat -> kn (f_core (g x)) p <= kn (f_core (g' x)) p) /\
  (forall p, kn (f_core (g j)) p <= kn (f_core (g' i)) p /\ kn (f_core (g i)) p <= kn (f_core (g' j)) p).
Proof.
  intros I Hi Hj Ne M g'.
  destruct (meeting_tops (K i) (K j) (g i) (g j)) with (y := (a', b')) as (Iv & Ta & Tb); auto.
  - apply (gi_node _ _ _ _ I). auto.
  - apply (gi_node _ _ _ _ I). auto.
  - apply ginv_peers; auto.
  - intros k F H. eapply N.le_lt_trans; [|apply (gr_total _ _ _ G)]. apply total_group; auto.
    + intros x Hx. eapply node_fine; eauto.
    + intros p. right. specialize (H p).
      destruct (gi_from _ _ _ _ I i p Hi) as (x & Hx & Ex). destruct (gi_from _ _ _ _ I j p Hj) as (y & Hy & Ey).
      destruct (N.max_spec (kn (f_core (g i)) p) (kn (f_core (g j)) p)) as [[_ Q]|[_ Q]]; rewrite Q in H.
      * exists y. split; auto. lia.
      * exists x. split; auto. lia.
  - cbn [fst snd] in *.
    assert (forall x, (g' x = a' /\ x = i) \/ (g' x = b' /\ x = j) \/ (g' x = g x)) as Cs.
    { intros x. unfold g'. destruct (Nat.eqb_spec x i); auto. destruct (Nat.eqb_spec x j); auto. }
    assert (forall p, exists y, (y < m)%nat /\ N.max (kn (f_core (g i)) p) (kn (f_core (g j)) p) = kn (f_core (g0 y)) p) as Mx.
    { intros p. destruct (N.max_spec (kn (f_core (g i)) p) (kn (f_core (g j)) p)) as [[_ Q]|[_ Q]]; rewrite Q;
      apply (gi_from _ _ _ _ I); auto. }
    split; [|split].
    + split.
      * intros x Hx. destruct (Cs x) as [[-> ->]|[[-> ->]| ->]]; [apply (pi_a _ _ _ _ _ Iv)|apply (pi_b _ _ _ _ _ Iv)|].
        apply (gi_node _ _ _ _ I). auto.
      * intros x p Hx. destruct (Cs x) as [[-> ->]|[[-> ->]| ->]]; rewrite ?Ta, ?Tb; auto. apply (gi_from _ _ _ _ I). auto.
      * intros x p Hx. pose proof (gi_mono _ _ _ _ I x p Hx). destruct (Cs x) as [[-> ->]|[[-> ->]| ->]]; rewrite ?Ta, ?Tb; lia.
    + intros x p Hx. destruct (Cs x) as [[-> ->]|[[-> ->]| ->]]; rewrite ?Ta, ?Tb; lia.
    + intros p. unfold g'. rewrite Nat.eqb_refl. destruct (Nat.eqb_spec j i); [congruence|]. rewrite Nat.eqb_refl, Ta, Tb. lia.
Qed.
Lemma gossip_inv l : forall g g', ginv K m g0 g -> gossip K m l g g' ->
  ginv K m g0 g' /\ (forall x p, (x < m)%nat -> kn (f_core (g x)) p <= kn (f_core (g' x)) p) /\
  (forall i j p, (i < m)%nat -> (j < m)%nat -> In (i, j) l \/ In (j, i) l -> kn (f_core (g j)) p <= kn (f_core (g' i)) p).
Proof.
  induction l as [|[i j] l IH]; intros g g' I H; inversion H; subst.
  - split; [auto|]. split; [lia|]. intros i j p _ _ [[]|[]].
  - match goal with M : meeting _ _ _ _ |- _ => destruct (ginv_step g i j a' b' I) as (I1 & M1 & X1); auto end.
    destruct (IH _ _ I1 H9) as (I2 & M2 & X2). split; [auto|]. split.
    + intros x p Hx. etransitivity; [apply M1|apply M2]; auto.
    + intros i' j' p Hi Hj [[[= -> ->]|Hin]|[[= -> ->]|Hin]].
      * etransitivity; [apply (X1 p)|apply M2; auto].
      * etransitivity; [apply M1; auto|apply X2; auto].
      * etransitivity; [apply (X1 p)|apply M2; auto].
      * etransitivity; [apply M1; auto|apply X2; auto].
Qed.
End Group.
