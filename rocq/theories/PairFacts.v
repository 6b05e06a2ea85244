(** Facts about a partial producer and a consumer on an arbitrary network. *)
From Coq Require Import List NArith ZArith Bool Arith Lia Sorted.
From Verif Require Import Base BaseFacts Mon MonFacts Iblt IbltFacts SpecIblt HonestFacts IbltProps Tlv TlvFacts State StateFacts
  NMap NMapFacts Codec CodecFacts Bloom SpecBloom BloomFacts Properties_Bloom Store StoreFacts Producer SpecProducer
  ProducerFacts Properties_Producer Partial SpecPartial PartialFacts PartialSteps Properties_Partial Full SpecFull FullData
  FullRuns Consumer SpecConsumer ConsumerFacts SpecGroup GroupFacts SpecPair PairProducer PairConsumer.
Import ListNotations.
Local Open Scope N_scope.

(** ** Numbers only grow *)
Lemma below_fold p ops : forall c v, no_removal ops -> c = Some v ->
  exists v', fold_left (seq_step p) ops c = Some v' /\ v <= v'.
Proof.
  induction ops as [|o ops IH]; intros c v Nr ->; cbn [fold_left]; [exists v; split; [reflexivity|lia]|].
  assert (exists v1, seq_step p (Some v) o = Some v1 /\ v <= v1) as (v1 & E1 & L1).
  { destruct o as [q|q|q w|q [w|]]; cbn [seq_step option_map].
    - destruct (name_eqb p q); exists v; split; auto; lia.
    - destruct (name_eqb p q) eqn:Q; [|exists v; split; auto; lia]. apply name_eqb_eq in Q. subst q. destruct (Nr p). left. reflexivity.
    - destruct (name_eqb p q); [exists (N.max w v)|exists v]; split; auto; lia.
    - destruct (name_eqb p q); [exists (N.max w v)|exists v]; split; auto; lia.
    - destruct (name_eqb p q); [eexists|exists v]; split; auto; lia. }
  destruct (IH (seq_step p (Some v) o) v1) as (v2 & E2 & L2); [intros q X; apply (Nr q); right; exact X|exact E1|].
  exists v2. split; [exact E2|lia].
Qed.
Lemma below_app a b p v : no_removal (a ++ b) -> below (fun q => seq_after q a) p v -> below (fun q => seq_after q (a ++ b)) p v.
Proof.
  intros Nr (v1 & E & L). apply no_removal_app in Nr as [_ Nr]. destruct (below_fold p b (seq_after p a) v1 Nr E) as (v2 & E2 & L2).
  exists v2. rewrite seq_after_app. split; [exact E2|lia].
Qed.
Lemma point_below n ops k p v : Forall cop_wf ops -> no_removal ops -> point n ops k -> get_seq p k = Some v ->
  below (fun q => seq_after q ops) p v.
Proof.
  intros W Nr (pre & post & -> & C) G. apply Forall_app in W as [W _]. apply below_app; auto.
  exists v. split; [|lia]. rewrite <- G. symmetry. apply (C29_sequence_numbers n pre k p W C).
Qed.

(** ** States of the producer *)
Section Points.
Variable K : pcfg.
Let n := pc_n K.
Lemma differ_free ops : Forall cop_wf ops -> hashes_differ n ops -> collision_free n ops.
Proof.
  intros W H pre post k E C. assert (point n ops k) as P by (exists pre, post; auto).
  assert (NoDup (live k)) as Nd.
  { apply live_names_NoDup; apply (crun_pfx pre (core_new n) k (core_new_pfx n)); auto; rewrite E in W; apply Forall_app in W; tauto. }
  assert (forall l, NoDup l -> (forall x, In x l -> In x (live k)) -> NoDup (map name_hash l)) as G; [|apply G; auto].
  intros l. induction 1 as [|x l Hx _ IH]; intros Hl; simpl; constructor; auto.
  - intros Hin. apply in_map_iff in Hin as (y & Ey & Hy). apply Hx.
    rewrite (H k k x y P P); auto; [apply Hl; left; reflexivity|apply Hl; right; exact Hy].
  - apply IH. intros y Hy. apply Hl. right. exact Hy.
Qed.
Lemma point_ibf ops k : Forall cop_wf ops -> hashes_differ n ops -> point n ops k ->
  IbfOf n (map name_hash (live k)) (k_iblt k) /\ NoDup (map name_hash (live k)) /\ Forall wf_cell (k_iblt k).
Proof.
  intros W H (pre & post & E & C). pose proof (differ_free ops W H) as Cf. rewrite E in W, Cf. apply Forall_app in W as [W _].
  pose proof (collision_free_app _ _ _ Cf) as Cf'. destruct (C30_ibf_is_current_names n pre k W C Cf') as [I _].
  split; [exact I|]. split; [apply (Cf' pre [] k); auto; symmetry; apply app_nil_r|].
  eapply IbfOf_wf_cells; [|exact I]. apply Forall_forall. intros h Hh. apply in_map_iff in Hh as (nm & <- & _). apply name_hash_lt.
Qed.
Lemma point_live ops k nm : Forall cop_wf ops -> point n ops k ->
  (In nm (live k) <-> exists p v, get_seq p k = Some v /\ v <> 0 /\ nm = append_number p v).
Proof.
  intros W (pre & post & -> & C). apply Forall_app in W as [W _]. rewrite (C30_live_names n pre k nm W C).
  split; intros (p & v & A & B & D); exists p, v; (split; [|auto]).
  - rewrite (C29_sequence_numbers n pre k p W C). exact A.
  - rewrite <- (C29_sequence_numbers n pre k p W C). exact A.
Qed.
Lemma point_lt ops k p v : Forall cop_wf ops -> point n ops k -> get_seq p k = Some v -> v < two64.
Proof.
  intros W (pre & post & -> & C) G. apply Forall_app in W as [W _].
  destruct (crun_pfx pre (core_new n) k (core_new_pfx n) W C) as [_ B]. exact (B p v G).
Qed.
Lemma length_ibf ks t : IbfOf n ks t -> length t = length (iblt_new n).
Proof. intros H. apply IbfOf_cells in H as (L & _). rewrite L. unfold iblt_new. rewrite repeat_length. reflexivity. Qed.
(** one component stands for one IBF *)
Lemma carries_table ops k1 k2 c : lossless (pc_codec K) -> Forall cop_wf ops -> hashes_differ n ops -> point n ops k1 -> point n ops k2 ->
  carries_ibf (pc_codec K) (pc_scheme K) c (k_iblt k1) -> carries_ibf (pc_codec K) (pc_scheme K) c (k_iblt k2) -> k_iblt k1 = k_iblt k2.
Proof.
  intros Ls W H P1 P2 [_ C1] [_ C2]. destruct (point_ibf ops k1 W H P1) as (I1 & _ & W1). destruct (point_ibf ops k2 W H P2) as (I2 & _ & W2).
  apply (decompress_compress _ _ _ _ Ls) in C1, C2. apply table_bytes_inj; auto; [|congruence].
  rewrite (length_ibf _ _ I1), (length_ibf _ _ I2). reflexivity.
Qed.
(** the producer reads the IBF that the component stands for *)
Lemma carries_read ops k c t : lossless (pc_codec K) -> Forall cop_wf ops -> hashes_differ n ops -> point n ops k ->
  carries_ibf (pc_codec K) (pc_scheme K) c (k_iblt k) -> initialize (pc_codec K) (pc_scheme K) (iblt_new n) c = (t, Ok tt) -> t = k_iblt k.
Proof.
  intros Ls W H P [Ct Cc] In. destruct (point_ibf ops k W H P) as (I & _ & Wc).
  destruct (initialize_append (pc_codec K) (pc_scheme K) [] (k_iblt k) [Tlv.mkComp TYPE_GENERIC (cval c)] (iblt_new n)) as (c' & E & Q); auto.
  - symmetry. eapply length_ibf; eauto.
  - unfold append_ibf. rewrite Cc. reflexivity.
  - injection E as <-. unfold initialize in *. cbn [cval] in Q. congruence.
Qed.
(** equal IBFs, equal numbers *)
Lemma iblt_same ops k1 k2 p v : Forall cop_wf ops -> hashes_differ n ops -> always_exact K ops -> point n ops k1 -> point n ops k2 ->
  k_iblt k1 = k_iblt k2 -> get_seq p k1 = Some v -> v <> 0 -> get_seq p k2 = Some v.
Proof.
  intros W H X P1 P2 E G Hv. destruct (point_ibf ops k1 W H P1) as (I1 & N1 & _). destruct (point_ibf ops k2 W H P2) as (I2 & N2 & _).
  set (a := map name_hash (live k1)) in *. set (b := map name_hash (live k2)) in *.
  destruct (X k1 k2 P1 P2) as [X1 X2]. destruct (X k1 k1 P1 P1) as [Y1 Y2]. fold a b in X1, X2, Y1, Y2.
  destruct (iblt_sub_honest n a b (k_iblt k1) (k_iblt k2) (pc_fuel K) N1 N2 I1 I2 X1 X2) as (d & Ed & _ & _ & _ & Dd).
  destruct (iblt_sub_honest n a a (k_iblt k1) (k_iblt k1) (pc_fuel K) N1 N1 I1 I1 Y1 Y2) as (d' & Ed' & _ & _ & Dc & Dd').
  rewrite E in Ed, Ed'. assert (d' = d) as -> by congruence.
  assert (only_in a a = []) as Ho.
  { destruct (only_in a a) as [|x l0] eqn:Eq; auto.
    assert (In x (only_in a a)) as Hx by (rewrite Eq; left; auto). apply only_in_In in Hx. tauto. }
  rewrite Ho in Dc. assert (can_decode d = true) as Cd by (apply Dc; exists []; split; [constructor|exact I]).
  destruct (Dd Cd) as [Dp _]. destruct (Dd' Cd) as [Dp' _].
  assert (In (append_number p v) (live k1)) as Hl by (apply (point_live ops k1 _ W P1); eauto).
  assert (In (name_hash (append_number p v)) a) as Ha by (apply in_map; exact Hl).
  assert (In (name_hash (append_number p v)) b) as Hb.
  { destruct (in_dec N.eq_dec (name_hash (append_number p v)) b) as [Y|Y]; auto.
    assert (In (name_hash (append_number p v)) (positive d)) as Z by (apply Dp; auto). apply Dp' in Z as [_ Z]. contradiction. }
  apply in_map_iff in Hb as (nm & En & Hn). rewrite (H k2 k1 nm (append_number p v) P2 P1 Hn Hl En) in Hn.
  apply (point_live ops k2 _ W P2) in Hn as (q & w & G2 & _ & Eq).
  apply append_number_inj in Eq as [<- <-]; auto; [exact (point_lt ops k1 p v W P1 G)|exact (point_lt ops k2 q w W P2 G2)].
Qed.
End Points.

(** ** Assumptions carry over to earlier states *)
Section Earlier.
Variable K : pcfg.
Lemma differ_app n a b : hashes_differ n (a ++ b) -> hashes_differ n a.
Proof. intros H k1 k2 x y P1 P2. apply H; apply point_app; auto. Qed.
Lemma exact_app a b : always_exact K (a ++ b) -> always_exact K a.
Proof. intros H k1 k2 P1 P2. apply H; apply point_app; auto. Qed.
Lemma sendable_app n a b : sendable n (a ++ b) -> sendable n a.
Proof.
  intros H l Nd Hl. apply H; auto. intros nm Hn. destruct (Hl nm Hn) as (p & v & E & Hd). exists p, v. split; auto. apply had_app. exact Hd.
Qed.
Lemma plain_earlier w w' evs : du_evs w' = du_evs w ++ evs ->
  (pb_published (pp_pub (du_prod w)) <= pb_published (pp_pub (du_prod w')))%nat -> plain K w' -> plain K w.
Proof.
  intros E L [H1 H2 H3 H4]. unfold told_apart in H4. rewrite E, history_app in *. constructor.
  - eapply differ_app; eauto.
  - eapply exact_app; eauto.
  - eapply sendable_app; eauto.
  - destruct H4 as [[A B]|B]; [left; split; intros; [apply A|apply B; auto]; lia|right]. intros l Nd Hl. apply B; auto.
    intros nm Hn. destruct (Hl nm Hn) as (p & v & Q & Hd). exists p, v. split; auto. apply had_app. exact Hd.
Qed.
End Earlier.

(** publications are counted *)
Section Counted.
Variables (K : pcfg) (m : nat).
Let I (s : pp) : Prop := (m <= pb_published (pp_pub s))%nat.
Let P (d : data) : Prop := True.
Lemma all_true (o : list data) : Forall P o.
Proof. apply Forall_forall. intros; exact Logic.I. Qed.
Lemma counted_publish iname dn b f : hoare I P (pp_publish K iname dn b f).
Proof.
  intros s Hs. split; [|apply all_true]. unfold pp_publish.
  pose proof (pubs_publish (pc_env K) (pp_now s) iname dn b f (pp_pub s)) as L.
  destruct (publish (pc_env K) (pp_now s) iname dn b f (pp_pub s)) as [p' r]. cbn [fst] in L.
  unfold I in *. destruct r; cbn [st fst set_pub pp_pub]; lia.
Qed.
Lemma counted_nack nm : hoare I P (pp_send_nack K nm).
Proof.
  unfold pp_send_nack. apply hoare_get_bind. intros s Hs.
  set (q := count_signed (pp_pub s)). assert (m <= pb_published q)%nat as L by exact Hs.
  assert (hoare I P (mlet dn <- mlift (append_ibf (pc_codec K) (pc_scheme K) nm (k_iblt (pp_core s)));
    mmod (set_pub q) ;; memit [nack_data (pc_env K) (pb_signed (pp_pub s)) (pc_sync_fresh K) dn])) as H; [|apply H; exact Hs].
  apply hoare_bind; [apply hoare_lift|intros dn]. apply hoare_bind; [apply hoare_mod; intros s1 _; exact L|intros _].
  apply hoare_emit, all_true.
Qed.
Lemma counted_satisfy p keys : hoare I P (satisfy K p keys).
Proof.
  induction keys as [|k keys IH]; cbn [satisfy]; [apply hoare_ret|]. apply hoare_bind; [|intros _; exact IH].
  unfold satisfy_one. apply hoare_get_bind. intros s Hs. destruct (nm_find k (pp_pending s)) as [e|]; [|apply hoare_ret; exact Hs].
  match goal with |- I (st (?f s)) /\ _ => assert (hoare I P f) as H; [|apply H; exact Hs] end.
  assert (forall g, hoare I P (mmod (fun s : pp => set_pending (g s) s))) as D by (intros g; apply hoare_mod; intros s1 H1; exact H1).
  apply hoare_bind; [apply hoare_lift|intros d]. cbv zeta. destruct (negb (can_decode d)); [apply D|].
  apply hoare_bind; [apply hoare_lift|intros x]. destruct (x || _); [|apply hoare_ret].
  apply hoare_bind; [apply hoare_lift|intros dn]. apply hoare_bind; [apply counted_publish|intros _; apply D].
Qed.
Lemma counted_step e : hoare I P (pp_step K e).
Proof.
  destruct e as [p|p|p q|nm l|dt|key|j]; cbn [pp_step].
  - apply hoare_mod. auto.
  - apply hoare_bind; [apply hoare_get|intros s]. apply hoare_bind; [apply hoare_lift|intros k]. apply hoare_mod. auto.
  - unfold pp_publish_name. apply hoare_bind; [apply hoare_get|intros s]. apply hoare_bind; [apply hoare_lift|intros r].
    apply hoare_bind; [apply hoare_mod; auto|intros _]. destruct (snd r); [apply counted_satisfy|apply hoare_ret].
  - unfold dispatch. destruct (is_prefix _ _).
    + unfold on_hello_interest. apply hoare_bind; [apply hoare_get|intros s]. destruct (reply_from_store _ _); [apply hoare_emit, all_true|].
      apply hoare_bind; [apply hoare_lift|intros ok]. destruct ok; [|apply hoare_ret].
      apply hoare_bind; [apply hoare_lift|intros dn]. apply counted_publish.
    + destruct (is_prefix _ _); [|apply hoare_ret]. unfold on_sync_interest. apply hoare_bind; [apply hoare_get|intros s].
      destruct (reply_from_store _ _); [apply hoare_emit, all_true|]. destruct (sync_request _ _); [|apply hoare_ret].
      apply hoare_bind; [apply hoare_lift|intros ex]. destruct ex as [[bf t]|]; [|apply hoare_ret].
      apply hoare_bind; [apply hoare_lift|intros d]. destruct (negb (can_decode d)); [apply counted_nack|].
      apply hoare_bind; [apply hoare_lift|intros c]. destruct (_ || _); [|apply hoare_mod; auto].
      apply hoare_bind; [apply hoare_lift|intros dn]. apply counted_publish.
  - apply hoare_mod. auto.
  - apply hoare_mod. intros s Hs. unfold expire. destruct (nm_find _ _) as [e|]; auto. destruct (pe_expiry e) as [[dl x]|]; auto.
    destruct (_ <=? _); auto.
  - apply hoare_mod. intros s Hs. unfold I in *. cbn [pp_pub set_pub]. unfold pub_fire. destruct (nth_error _ _) as [[dl x]|]; auto.
    destruct (dl <=? _); auto.
Qed.
End Counted.

(** ** The invariant of the pair *)
Section Pair.
Variables (K : pcfg) (Kc : ccfg).
Hypothesis Ok2 : duo_ok K Kc.
Let n := pc_n K.
Definition carr (c : comp) (k : core) : Prop := carries_ibf (pc_codec K) (pc_scheme K) c (k_iblt k).
Record DI (b0 : bloom) (S : name -> Prop) (W : name -> N) (w : duo) : Prop := mkDI {
  di_new : bloom_new (cc_libm Kc) (cc_count Kc) (cc_rate Kc) = Ok b0;
  di_run : pp_run K (pp_new K) (du_evs w) = Some (du_prod w, du_sent w);
  di_wf : Forall pev_wf (du_evs w);
  di_ci : CI Kc b0 S W carr (point n (history (du_evs w))) (current w) any [] (du_cons w);
  di_told : forall av p v, In (CoHello av) (du_seen w) -> nm_find p av = Some v -> below (current w) p v }.
(** what the application is allowed to do *)
Definition allowed (S : name -> Prop) (w : duo) (a : activity) : Prop :=
  match a with
  | AppCalls l =>
    (forall p v cb, In (CSub p v cb) l -> below (current w) p v /\ (S p -> sub (du_cons w) p /\ ~ In (CUnsub p) l)) /\
    resends (busy (du_cons w)) l
  | AppSync l => forall p v cb, In (CSub p v cb) l -> below (current w) p v /\ (S p -> sub (du_cons w) p /\ ~ In (CUnsub p) l)
  | AppHello buf sc1 sc2 =>
    (forall p v cb, In (CSub p v cb) sc1 -> (told_by buf p v \/ below (current w) p v) /\
       (S p -> told_by buf p v \/ (sub (du_cons w) p /\ ~ In (CUnsub p) sc1))) /\
    (forall p v cb, In (CSub p v cb) sc2 -> (told_by buf p v \/ below (current w) p v) /\
       (S p -> sub (du_cons w) p /\ ~ In (CUnsub p) (sc1 ++ sc2))) /\
    resends (busy (du_cons w)) sc1 /\ resends True sc2
  end.
Lemma di_size b0 : bloom_new (cc_libm Kc) (cc_count Kc) (cc_rate Kc) = Ok b0 -> b_size b0 <> 1.
Proof. intros E. destruct (dk_filter _ _ Ok2) as (b & Eb & Hb). congruence. Qed.
Lemma DI_fresh w : fresh_duo K Kc w -> exists b0, forall S W, DI b0 S W w.
Proof.
  intros (c & Ec & ->). unfold c_new in Ec. destruct (bloom_new (cc_libm Kc) (cc_count Kc) (cc_rate Kc)) as [b0|e|u|] eqn:E; try discriminate.
  injection Ec as <-. exists b0. intros S W. constructor; cbn [du_evs du_prod du_sent du_cons du_seen]; auto.
  - destruct (creaches_inv Kc [] (mkCS 0 [] [] b0 [] [] [] Blob None None [] 0 [] 0) []) as (b1 & E1 & D & L).
    { unfold creaches, c_start, c_new. rewrite E. reflexivity. }
    rewrite E in E1. injection E1 as <-. constructor; auto.
    + left. reflexivity.
    + discriminate.
    + intros i m [].
    + intros i m [].
  - intros av p v [].
Qed.
(** the names of a content *)
Lemma hello_brings evs k p v : Forall pev_wf evs -> point n (history evs) k ->
  (brings (hello_content k) p v <-> get_seq p k = Some v).
Proof.
  intros Wf Pt. split.
  - intros (x & Hx & Ex). apply (hello_In K evs k _ Wf Pt) in Hx as (q & u & E & G). unfold append_number in E.
    apply app_inj_tail in E as [<- ->]. rewrite to_number_number in Ex; [congruence|]. exact (get_lt K evs k p u Wf Pt G).
  - intros G. exists (number_comp TYPE_GENERIC v). split; [|apply to_number_number; exact (get_lt K evs k p v Wf Pt G)].
    change (p ++ [number_comp TYPE_GENERIC v]) with (append_number p v). apply (hello_In K evs k _ Wf Pt). eauto.
Qed.
Lemma told_names buf names p v : state_of_buffer buf = Ok names -> told_by buf p v -> brings names p v.
Proof. intros E (names' & x & E' & H & Ex). rewrite E in E'. injection E' as <-. exists x. auto. Qed.
Lemma good_had evs k nm : Forall pev_wf evs -> point n (history evs) k -> (exists p v, nm = append_number p v /\ get_seq p k = Some v) ->
  good_name nm.
Proof.
  intros Wf Pt (p & v & -> & G). exists p, (number_comp TYPE_GENERIC v). split; [reflexivity|]. exists v.
  apply to_number_number. exact (get_lt K evs k p v Wf Pt G).
Qed.
Lemma last_comp_snoc (p : name) c : last_comp (p ++ [c]) = [c].
Proof. unfold last_comp. rewrite app_length. simpl length. rewrite Nat.add_sub, skipn_app, skipn_all, Nat.sub_diag. reflexivity. Qed.

Lemma DI_step b0 S W rule w w' : DI b0 S W w -> duo_step K Kc rule w w' -> (forall a, rule w a -> allowed S w a) ->
  plain K w' -> no_removal (history (du_evs w')) -> DI b0 S W w'.
Proof.
  intros D St Al Pl Nr. destruct D as [Dn Dr Dw Dc Dt]. pose proof (di_size _ Dn) as Hs. pose proof (dk_rate _ _ Ok2) as Hr.
  destruct St as [e s o r We Es Er|e c o r Hb Ec Er|l c o r Hl Ec Er|i k m d buf sc1 sc2 c1 o1 r1 c2 o2 r2 Fi Cm Hru E1 R1 E2 R2];
    cbn [du_evs du_prod du_sent du_cons du_seen] in *.
  - assert (forall p v, below (current w) p v -> below (current (mkDuo (du_evs w ++ [e]) s (du_sent w ++ o) (du_cons w) (du_seen w))) p v) as Bl.
    { intros p v H. unfold current in *. cbn [du_evs]. rewrite history_app in *. apply below_app; auto. }
    constructor; cbn [du_evs du_prod du_sent du_cons du_seen]; auto.
    + unfold pp_run in *. rewrite run_app, Dr. cbn [run]. rewrite Es. destruct Er as [->|[x ->]]; rewrite app_nil_r; reflexivity.
    + apply Forall_app. auto.
    + eapply ci_weaken; try exact Dc; auto. intros k. apply point_history.
    + intros av p v H1 H2. apply Bl. eapply Dt; eauto.
  - destruct (ci_background Kc b0 S W carr Hr Dn Hs _ _ _ _ _ _ _ _ Dc Hb Ec Er) as (-> & C' & No).
    constructor; cbn [du_evs du_prod du_sent du_cons du_seen]; auto.
    intros av p v H. apply in_app_or in H as [H|H]; [apply (Dt av p v H)|destruct (No av H)].
  - apply ends_fine in Er. destruct (Al _ Hl) as [A1 A2].
    destruct (ci_calls Kc b0 S W carr Hr Dn Hs (point n (history (du_evs w))) (current w) any [] l (du_cons w) c o r) as [-> C']; auto.
    { rewrite app_nil_r. eapply ci_frame; try exact Dc; auto; try apply same_refl; try (apply Dc). intros a []. }
    { intros p v cb H. destruct (A1 p v cb H) as [B1 B2]. split; auto. }
    { intros l1 p v cb l2 E. rewrite app_nil_r. apply (A2 l1 p v cb l2 E). }
    constructor; cbn [du_evs du_prod du_sent du_cons du_seen]; auto.
    pose proof (calls_hello Kc l (du_cons w)) as No. rewrite Ec in No. cbn [outs fst snd] in No.
    intros av p v H. apply in_app_or in H as [H|H]; [apply (Dt av p v H)|destruct (No av H)].
  - assert (plain K w) as [P1 P2 P3 P4].
    { destruct Pl as [P1 P2 P3 P4]. constructor; auto. }
    pose proof (history_wf _ Dw) as Wh. pose proof (differ_free K _ Wh P1) as Cf.
    destruct (producer_packets K (dk_scheme _ _ Ok2) (du_evs w) (du_prod w) (du_sent w) Dw Cf Dr) as (P & PI).
    destruct (ci_segment Kc b0 S W carr Hs _ _ _ _ _ _ _ _ _ Dc E1) as (-> & C1 & Sg).
    pose proof (gather1 K P (du_evs w) _ _ w m d buf PI Dw P3 eq_refl eq_refl P4 Cm) as Ga.
    set (pts := point n (history (du_evs w))) in *.
    assert (forall k, pts k -> forall p v, get_seq p k = Some v -> below (current w) p v) as Pb.
    { intros k0 Pt p v G. exact (point_below n (history (du_evs w)) k0 p v Wh Nr Pt G). }
    assert (sub c1 = sub (du_cons w)) as Esub by (unfold sub; destruct (sg_data _ _ _ _ _ _ Sg) as (_ & -> & _); reflexivity).
    assert (busy c1 <-> busy (du_cons w)) as Ebusy.
    { split; intros (j & x & H); exists j, x; apply (sg_sync _ _ _ _ _ _ Sg); exact H. }
    pose proof (Al _ Hru) as Ax. clear Al. destruct k.
    + pose proof (ci_hello _ _ _ _ _ _ _ _ _ _ Dc i m (cfetch_In _ _ _ Fi)) as Em. unfold hello_prefix in Em. rewrite <- (dk_sync _ _ Ok2) in Em.
      subst m. destruct Ga as [(x & ver & Hx & -> & Ty & (fc & Fc) & Nb & Pre)|(_ & _ & rn & bf & t & cc & Rq & Pre)].
      2:{ rewrite (nack_hello K rn bf t cc Rq) in Pre. discriminate. }
      destruct (hello_answer K P (du_evs w) _ _ x ver PI Hx Pre) as (k0 & cc & Pt & Hc & Hp). fold pts in Pt.
      destruct (sg_hname _ _ _ _ _ _ Sg _ _ Fi Fc) as [Hn Hl].
      pose proof (pi_good _ _ _ _ _ PI x Hx) as Gx. destruct (good_size K (du_evs w) x Dw P3 Gx) as [Wn _]. destruct Gx as (Eb & _). rewrite Eb in *.
      destruct Hp as [Pn Pc].
      assert (state_of_buffer (encode_names (pn_names x)) = Ok (hello_content k0)) as Sb by (rewrite Pc in *; apply state_roundtrip; exact Wn).
      assert (forall p v, brings (hello_content k0) p v <-> get_seq p k0 = Some v) as Br by (intros; apply (hello_brings (du_evs w)); auto).
      assert (forall p v, told_by (encode_names (pn_names x)) p v -> get_seq p k0 = Some v) as Tb.
      { intros p v H. apply Br. eapply told_names; eauto. }
      destruct Ax as (A1 & A2 & A3 & A4).
      destruct (ci_hello_data Kc b0 S W carr Hr Dn Hs pts (current w) c1 i (pc_sync K ++ [HELLO]) (encode_names (pn_names x)) sc1 sc2 c2 o2 r2
        (hello_content k0) k0 cc C1) as (-> & C2 & av & o' & Eo & No & Av); auto.
      * rewrite Hl. exact Fi.
      * rewrite Hn, Nb, Pn. change [HELLO; cc] with ([HELLO] ++ [cc]). rewrite app_assoc. apply last_comp_snoc.
      * apply Forall_forall. intros nm Hnm. apply (good_had (du_evs w) k0); auto. apply (hello_In K (du_evs w) k0 nm Dw Pt). exact Hnm.
      * exact (Pb k0 Pt).
      * intros p v cb H. destruct (A1 p v cb H) as [B1 B2]. split.
        -- destruct B1 as [B1|B1]; auto. apply (Pb k0 Pt). apply Tb. exact B1.
        -- intros Sp. rewrite Esub. destruct (B2 Sp) as [B3|B3]; auto. left. intros k <-. rewrite (Tb p v B3). simpl. lia.
      * intros l1 p v cb l2 El. destruct (A3 l1 p v cb l2 El) as [Q|[Q|[Q1 Q2]]]; auto. right. right. split; auto. rewrite Ebusy. exact Q1.
      * intros p v cb H. destruct (A2 p v cb H) as [B1 B2]. rewrite Esub. split; auto.
        destruct B1 as [B1|B1]; auto. apply (Pb k0 Pt). apply Tb. exact B1.
      * constructor; cbn [du_evs du_prod du_sent du_cons du_seen]; auto.
        intros av' p v H Hf. apply in_app_or in H as [H|H]; [apply (Dt av' p v H Hf)|]. apply in_app_or in H as [H|H].
        { destruct (sg_quiet _ _ _ _ _ _ Sg av' H). }
        rewrite Eo in H. destruct H as [H|H]; [|destruct (No av' H)]. injection H as ->. apply (Pb k0 Pt). apply Av. exact Hf.
    + pose proof (ci_sync _ _ _ _ _ _ _ _ _ _ Dc i m (cfetch_In _ _ _ Fi)) as (d1 & d2 & d3 & cc & k & b & Em & [Bc _] & Ca & Pk & Z).
      destruct Ga as [(x & ver & Hx & -> & Ty & (fc & Fc) & Nb & Pre)|(Ty & (fc & Fc) & _)];
        destruct (sg_sname _ _ _ _ _ _ Sg _ _ Fi Fc) as (Hn & Ht & Fi').
      2:{ rewrite Ty in Ht. destruct (ci_nack Kc b0 S W carr Hs pts (current w) c1 i m buf sc1 sc2 c2 o2 r2 C1 Fi' Ht E2) as (-> & C2 & No).
          constructor; cbn [du_evs du_prod du_sent du_cons du_seen]; auto.
          intros av' p v H Hf. apply in_app_or in H as [H|H]; [apply (Dt av' p v H Hf)|]. apply in_app_or in H as [H|H];
            [destruct (sg_quiet _ _ _ _ _ _ Sg av' H)|destruct (No av' H)]. }
      unfold sync_prefix in Em. rewrite <- (dk_sync _ _ Ok2), <- app_assoc in Em. cbn [app] in Em. subst m.
      destruct (sync_answer K P (du_evs w) _ _ x ver d1 d2 d3 cc PI Hx Pre) as (k0 & c & bf & t & Pt & Hc & Pn & Bb & It & Nn & Cp). fold pts in Pt.
      rewrite (dk_libm _ _ Ok2), Bc in Bb. injection Bb as <-.
      assert (t = k_iblt k) as -> by (eapply (carries_read K (history (du_evs w))); eauto; apply (dk_lossless _ _ Ok2)).
      pose proof (pi_good _ _ _ _ _ PI x Hx) as Gx. destruct (good_size K (du_evs w) x Dw P3 Gx) as [Wn _]. destruct Gx as (Eb & _). rewrite Eb in *.
      assert (state_of_buffer (encode_names (pn_names x)) = Ok (pn_names x)) as Sb by (apply state_roundtrip; exact Wn).
      destruct (point_ibf K _ _ Wh P1 Pk) as (Ik & Nk & _).
      destruct (ci_sync_data Kc b0 S W carr Hr Dn Hs pts (current w) c1 i (pc_sync K ++ [SYNC; d1; d2; d3; cc]) (encode_names (pn_names x)) sc1 sc2 c2 o2 r2
        (pn_names x) k0 c C1) as (-> & C2 & No); auto.
      * rewrite Ht. exact Ty.
      * rewrite Hn, Nb, Pn. apply last_comp_snoc.
      * apply Forall_forall. intros nm Hnm. apply (good_had (du_evs w) k0); auto.
      * intros p v (y & Hy & Ey). destruct (Nn _ Hy) as (q & u & Eq & G). unfold append_number in Eq. apply app_inj_tail in Eq as [<- ->].
        rewrite to_number_number in Ey; [congruence|]. exact (get_lt K (du_evs w) k0 p u Dw Pt G).
      * exact (Pb k0 Pt).
      * intros p Hp Sp. rewrite Esub in Hp. destruct (Z p Hp) as [[Z1 Z2]|[[]|[]]]. specialize (Z2 Sp).
        assert (known c1 p = known (du_cons w) p) as Ek by (unfold known; destruct (sg_data _ _ _ _ _ _ Sg) as (-> & _ & _); reflexivity).
        destruct (get_seq p k0) as [v|] eqn:G; [|left; unfold covered; rewrite G; simpl; lia].
        destruct (N.eq_dec v 0) as [->|Hv]; [left; unfold covered; rewrite G; simpl; lia|].
        assert (In (append_number p v) (live k0)) as Hlv by (apply (point_live K _ k0 _ Wh Pt); eauto).
        destruct (Cp (map name_hash (live k)) (append_number p v) Nk Ik) as [H|H]; auto.
        -- intros k' Pk'. apply P2; auto.
        -- unfold append_number. rewrite name_prefix_back_snoc. exact Z1.
        -- left. apply in_map_iff in H as (nm & En & Hnm). rewrite (P1 k k0 nm (append_number p v) Pk Pt Hnm Hlv En) in Hnm.
           apply (point_live K _ k _ Wh Pk) in Hnm as (q & u & G2 & _ & Eq).
           apply append_number_inj in Eq as [<- <-]; [|exact (get_lt K (du_evs w) k0 p v Dw Pt G)|exact (get_lt K (du_evs w) k q u Dw Pk G2)].
           unfold covered in *. rewrite G, Ek. rewrite G2 in Z2. exact Z2.
        -- right. exists v. split; auto. exists (number_comp TYPE_GENERIC v). split; [exact H|].
           apply to_number_number. exact (get_lt K (du_evs w) k0 p v Dw Pt G).
      * intros p v cb H. destruct (Ax p v cb H) as [B1 B2]. rewrite Esub. split; auto.
      * constructor; cbn [du_evs du_prod du_sent du_cons du_seen]; auto.
        intros av' p v H Hf. apply in_app_or in H as [H|H]; [apply (Dt av' p v H Hf)|]. apply in_app_or in H as [H|H];
          [destruct (sg_quiet _ _ _ _ _ _ Sg av' H)|destruct (No av' H)].
Qed.

(** ** Whole executions *)
Lemma step_sub K' e c c' o r p : c_step K' e c = (c', o, r) -> fine r -> ~ In (CUnsub p) (calls_of e) -> sub c p -> sub c' p.
Proof.
  intros E F N H. pose proof (c_step_view K' e c) as V. rewrite E in V. cbn [st outs res fst snd] in V. specialize (V F).
  assert (forall s0, same_data c s0 -> sub s0 p) as Sd by (intros s0 (_ & X & _); unfold sub; rewrite X; exact H).
  assert (forall names s0 s1 x, same_data c s0 -> take_sync names s0 = (s1, [], x) -> sub s1 p) as TS.
  { intros names s0 s1 x X T. destruct (take_sync_inv names s0) as (_ & (m & B & _) & _). rewrite T in B. cbn [st fst snd] in B. subst s1.
    exact (Sd _ X). }
  assert (forall names s0 s1 x, same_data c s0 -> take_hello names [] s0 = (s1, [], x) -> sub s1 p) as TH.
  { intros names s0 s1 x X T. destruct (take_hello_inv names [] s0) as (_ & (m & B & _) & _). rewrite T in B. cbn [st fst snd] in B. subst s1.
    exact (Sd _ X). }
  inversion V; subst; eauto using did_sub_keeps.
Qed.
Lemma duo_step_sub p rule w w' : linv (du_cons w) -> duo_step K Kc (SpecPair.keeps p rule) w w' -> sub (du_cons w) p -> sub (du_cons w') p.
Proof.
  intros L St H. destruct St as [e s o r We Es Er|e c o r Hb Ec Er|l c o r Hl Ec Er|i k m d buf sc1 sc2 c1 o1 r1 c2 o2 r2 Fi Cm Hru E1 R1 E2 R2];
    cbn [du_cons] in *; auto.
  - eapply step_sub; [exact Ec|apply ends_fine; exact Er| |exact H]. destruct e; try destruct Hb; cbn [calls_of]; intros [].
  - pose proof (calls_did Kc l (du_cons w)) as X. rewrite Ec in X. cbn [st outs res fst snd] in X. destruct X as [_ X]; [apply ends_fine; auto|].
    eapply did_sub_keeps; [exact X| |exact H]. apply Hl.
  - assert (sub c1 p) as H1 by (eapply step_sub; [exact E1|apply ends_fine; exact R1| |exact H]; intros []).
    destruct k; destruct Hru as [_ Hn]; cbn [calls_in] in Hn.
    + eapply step_sub; [exact E2|apply ends_fine; exact R2| |exact H1]. exact Hn.
    + assert (cfetch i (c_live c1) = Some (KSync, m)) as F1.
      { destruct (segment_result Kc i d _ _ _ _ L E1) as [_ G]. apply In_cfetch; [apply (sg_linv _ _ _ _ _ _ G)|].
        apply (sg_sync _ _ _ _ _ _ G). apply cfetch_In. exact Fi. }
      assert (c_step Kc (CeContent i buf [] sc2) c1 = (c2, o2, r2)) as E3 by (cbn [c_step] in *; rewrite mbind_get, F1 in *; exact E2).
      eapply step_sub; [exact E3|apply ends_fine; exact R2| |exact H1]. exact Hn.
Qed.
Lemma duo_step_evs rule w w' : duo_step K Kc rule w w' -> exists evs, du_evs w' = du_evs w ++ evs /\
  (pb_published (pp_pub (du_prod w)) <= pb_published (pp_pub (du_prod w')))%nat.
Proof.
  intros [e s o r We Es Er|e c o r Hb Ec Er|l c o r Hl Ec Er|i k m d buf sc1 sc2 c1 o1 r1 c2 o2 r2 Fi Cm Hru E1 R1 E2 R2];
    cbn [du_evs du_prod]; [|exists []; split; [symmetry; apply app_nil_r|lia]..].
  exists [e]. split; auto. pose proof (counted_step K _ e (du_prod w) (le_n _)) as [H _]. rewrite Es in H. exact H.
Qed.
Lemma earlier rule w w' : duo_step K Kc rule w w' -> plain K w' -> no_removal (history (du_evs w')) ->
  plain K w /\ no_removal (history (du_evs w)).
Proof.
  intros St P N. destruct (duo_step_evs rule w w' St) as (evs & E & L). split; [eapply plain_earlier; eauto|].
  rewrite E, history_app in N. apply no_removal_app in N. tauto.
Qed.
Lemma earlier_run rule w w' : duo_run K Kc rule w w' -> plain K w' -> no_removal (history (du_evs w')) ->
  plain K w /\ no_removal (history (du_evs w)).
Proof. induction 1 as [w|w w1 w2 R IH St]; auto. intros P N. destruct (earlier _ _ _ St P N). auto. Qed.
Lemma run_below rule w w' p v : duo_run K Kc rule w w' -> no_removal (history (du_evs w')) -> below (current w) p v -> below (current w') p v.
Proof.
  induction 1 as [w|w w1 w2 R IH St]; auto. intros N B. destruct (duo_step_evs rule w1 w2 St) as (evs & E & _).
  unfold current in *. rewrite E, history_app in *. apply below_app; auto. apply no_removal_app in N. apply IH; tauto.
Qed.
Lemma DI_run b0 S W (J : duo -> Prop) (rule : duo -> activity -> Prop) w w' :
  (forall w a, DI b0 S W w -> J w -> rule w a -> allowed S w a) ->
  (forall w w', J w -> duo_step K Kc rule w w' -> DI b0 S W w -> J w') ->
  DI b0 S W w -> J w -> duo_run K Kc rule w w' -> plain K w' -> no_removal (history (du_evs w')) ->
  DI b0 S W w' /\ J w'.
Proof.
  intros Al Js D Jw R. induction R as [w|w w1 w2 R IH St]; auto. intros P N. destruct (earlier _ _ _ St P N) as [P1 N1].
  destruct (IH D Jw P1 N1) as [D1 J1]. split; [|eapply Js; eauto]. eapply DI_step; eauto.
Qed.
(** who holds the IBF holds the numbers *)
Lemma DI_current b0 S W w p : DI b0 S W w -> plain K w -> no_removal (history (du_evs w)) -> holds_current_ibf K w ->
  S p -> sub (du_cons w) p -> exists v u, seq_of p (du_cons w) = Some v /\ current w p = Some u /\ v <= u /\ u <= N.max v (W p).
Proof.
  intros [Dn Dr Dw Dc Dt] [P1 P2 P3 P4] Nr (c & Ei & Hc) Sp Hp. pose proof (history_wf _ Dw) as Wh.
  assert (known (du_cons w) p <> None) as Hk by (eapply (di_known b0); [apply Dc|exact Hp]).
  destruct (known (du_cons w) p) as [v|] eqn:Ev; [|congruence]. destruct (ci_known _ _ _ _ _ _ _ _ _ _ Dc p v Ev) as (u & Eu & L).
  exists v, u. split; [exact Ev|]. split; [exact Eu|]. split; [exact L|].
  destruct (ci_iblt _ _ _ _ _ _ _ _ _ _ Dc) as [H|(cc & k & _ & Pk & Ek & Ck & Z)]; [congruence|].
  assert (cc = c) as -> by congruence. specialize (Z p Sp Hp).
  pose proof (pp_run_core _ _ _ _ _ Dr) as Cr. cbn [pp_new pp_core] in Cr.
  assert (point n (history (du_evs w)) (pp_core (du_prod w))) as Pt by (exists (history (du_evs w)), []; split; [symmetry; apply app_nil_r|exact Cr]).
  pose proof (carries_table K _ _ _ _ (dk_lossless _ _ Ok2) Wh P1 Pk Pt Ck Hc) as Et.
  assert (get_seq p (pp_core (du_prod w)) = Some u) as G by (rewrite (C29_sequence_numbers n _ _ p Wh Cr); exact Eu).
  destruct (N.eq_dec u 0) as [->|Hu]; [lia|].
  pose proof (iblt_same K _ _ _ p u Wh P1 P2 Pt Pk (eq_sym Et) G Hu) as G2. unfold covered in Z. rewrite G2, Ev in Z. exact Z.
Qed.
(** what is known about any prefix is below its current number, whatever happened before *)
Lemma DI_convert b0 S W w p0 : DI b0 S W w -> plain K w -> no_removal (history (du_evs w)) ->
  DI b0 (eq p0) (fun p => seq0 (current w p)) w.
Proof.
  intros [Dn Dr Dw Dc Dt] P Nr. constructor; auto. destruct Dc as [C1 C2 C3 C4 C5 C6]. pose proof (history_wf _ Dw) as Wh.
  assert (forall k p, point n (history (du_evs w)) k -> covered (fun p => seq0 (current w p)) (du_cons w) k p) as Cv.
  { intros k p Pt. unfold covered. destruct (get_seq p k) as [v|] eqn:G; [|simpl; lia].
    destruct (point_below n _ k p v Wh Nr Pt G) as (u & Eu & L). unfold current. rewrite Eu. simpl. lia. }
  constructor; auto.
  - destruct C3 as [H|(cc & k & A & B & C & D & _)]; [left; exact H|]. right. exists cc, k. auto 6.
  - intros i m H. destruct (C5 i m H) as (c1 & c2 & c3 & cc & k & b & A & B & C & D & Z). exists c1, c2, c3, cc, k, b.
    repeat (split; [assumption|]). intros p Hp. destruct (Z p Hp) as [[Z1 _]|Z1]; auto.
Qed.
Lemma hello_allowed w a : subscribes_in_hello w a -> allowed (fun _ => True) w a.
Proof.
  assert (forall l P, no_subscription l -> resends P l) as R.
  { intros l P N l1 p v cb l2 E. destruct (N p v cb). rewrite E. apply in_or_app. right. left. reflexivity. }
  destruct a as [l|buf sc1 sc2|l]; cbn [subscribes_in_hello allowed].
  - intros N. split; [|apply R; exact N]. intros p v cb H. destruct (N p v cb H).
  - intros (H1 & H2 & N). split; [|split; [|split; [exact H2|apply R; exact N]]].
    + intros p v cb H. specialize (H1 p v cb H). auto.
    + intros p v cb H. destruct (N p v cb H).
  - intros N p v cb H. destruct (N p v cb H).
Qed.
Lemma any_allowed b0 S W w a : DI b0 S W w -> (forall p, S p -> sub (du_cons w) p /\ ~ In (CUnsub p) (calls_in a)) ->
  subscribes_any_time w a -> allowed S w a.
Proof.
  intros D Hs. assert (forall p v, told_before w p v -> below (current w) p v) as T.
  { intros p v (av & A & B). eapply (di_told _ _ _ _ D); eauto. }
  destruct a as [l|buf sc1 sc2|l]; cbn [subscribes_any_time allowed calls_in] in *.
  - intros [A B]. split; auto. intros p v cb H. split; eauto.
  - intros (A & B & C). split; [|split; [|auto]].
    + intros p v cb H. split; [destruct (A p v cb); [apply in_or_app; auto|auto|auto]|].
      intros Sp. right. destruct (Hs p Sp) as [X Y]. split; auto. intros Z. apply Y. apply in_or_app. auto.
    + intros p v cb H. split; [destruct (A p v cb); [apply in_or_app; auto|auto|auto]|]. auto.
  - intros A p v cb H. split; eauto.
Qed.
End Pair.
