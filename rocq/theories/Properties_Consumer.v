(** C47 to C51, and C43 to C46 for consumers: what a consumer sends, keeps and reports. *)
From Coq Require Import List NArith ZArith Bool Arith Lia Sorted.
From Coq.Strings Require Import Byte.
From Verif Require Import Base BaseFacts Mon MonFacts Iblt Tlv TlvFacts State StateFacts NMap NMapFacts Codec
  Bloom SpecBloom BloomFacts Properties_Bloom Store Producer SpecProducer ProducerFacts Properties_Producer Partial PartialFacts PartialSteps
  Properties_Partial Full SpecFull FullData FullRuns Properties_Full Consumer SpecConsumer ConsumerFacts.
Import ListNotations.
Local Open Scope N_scope.

(** ** A consumer for the examples *)
Definition Kc : ccfg := mkCcfg syncp 1 (rate 1) libm_example env_example.
Definition s_c0 : cs := mkCS 0 [] [] b_ex [] [] [] Blob None None [] 0 [] 0.
Lemma start_c evs : c_start Kc evs = c_run Kc s_c0 evs.
Proof. unfold c_start, c_new. change (bloom_new (cc_libm Kc) (cc_count Kc) (cc_rate Kc)) with (bloom_new libm_example 1 (rate 1)). rewrite b_ex_ok. reflexivity. Qed.
Lemma filter_c : filter_ok Kc.
Proof. exists b_ex. split; [exact b_ex_ok|discriminate]. Qed.
Lemma rate_c : rate_ok Kc.
Proof. split; [reflexivity|]. exists 1. split; [reflexivity|]. split; discriminate. Qed.
(** a segment of a reply, and the content of one name *)
Definition seg (k : name) (t : content_type) : data := mkData k t [] (Some (number_comp TYPE_SEGMENT 0)) 1000 [].
Definition hello_name : name := syncp ++ [HELLO; gen [x01]; number_comp TYPE_VERSION 1; number_comp TYPE_SEGMENT 0].
Definition sync_name : name := syncp ++ [SYNC; gen [x01]; number_comp TYPE_VERSION 1; number_comp TYPE_SEGMENT 0].
(** hello, then two subscriptions, then a sync interest *)
Definition evs_c1 : list cev :=
  [CeCall CSendHello; CeSegment 0 (seg hello_name Blob); CeContent 0 two_content [] [];
   CeCall (CSub pa 4 true); CeCall (CSub pb 5 false); CeCall CSendSync].
Definition after (evs : list cev) : cs * list cout :=
  match c_run Kc s_c0 evs with Some x => x | None => (s_c0, []) end.
Definition s_c1 : cs := Eval vm_compute in fst (after evs_c1).
Definition o_c1 : list cout := Eval vm_compute in snd (after evs_c1).
Lemma reach_c evs s o : c_run Kc s_c0 evs = Some (s, o) -> creaches Kc evs s o.
Proof. unfold creaches. rewrite start_c. auto. Qed.
Lemma reach_c1 : creaches Kc evs_c1 s_c1 o_c1.
Proof. apply reach_c. vm_compute. reflexivity. Qed.

(** * C43 *)
(** Missing: contents that are no list of names, or with names that do not end in a number (see
    below).  A fetch completes only after a segment with a FinalBlock, so both data names are those
    of packets. *)
Theorem C43_consumer_survives_good_content_partial : forall K evs s o i buf sc1 sc2,
  filter_ok K -> rate_ok K -> creaches K evs s o -> cgood_content buf -> c_sname s <> [] -> c_hname s <> [] ->
  res (c_step K (CeContent i buf sc1 sc2) s) = Ok tt.
Proof.
  intros K evs s o i buf sc1 sc2 (b & Eb & Hb) (_ & t & Hr & Ht) R G Hs Hh.
  destruct (creaches_inv _ _ _ _ R) as (b0 & E0 & D & _). rewrite Eb in E0. injection E0 as <-.
  eapply content_safe; eauto.
Qed.
Print Assumptions C43_consumer_survives_good_content_partial.

Lemma two_cgood : cgood_content two_content.
Proof.
  exists two_names. split; [vm_compute; reflexivity|]. repeat constructor; apply number_good; reflexivity.
Qed.
Definition evs_c2 : list cev := evs_c1 ++ [CeSegment 1 (seg sync_name Blob)].
Definition s_c2 : cs := Eval vm_compute in fst (after evs_c2).
Definition o_c2 : list cout := Eval vm_compute in snd (after evs_c2).
Lemma reach_c2 : creaches Kc evs_c2 s_c2 o_c2.
Proof. apply reach_c. vm_compute. reflexivity. Qed.
Example C43_consumer_example : filter_ok Kc /\ rate_ok Kc /\ creaches Kc evs_c2 s_c2 o_c2 /\
  cgood_content two_content /\ c_sname s_c2 <> [] /\ c_hname s_c2 <> [] /\
  cfetch 1 (c_live s_c2) <> None.
Proof.
  split; [exact filter_c|]. split; [exact rate_c|]. split; [exact reach_c2|]. split; [exact two_cgood|].
  split; [discriminate|]. split; discriminate.
Qed.

(** bytes that are no block, a name that does not end in a number, and the empty name *)
Theorem C43_consumer_survives_any_content_refuted : exists K evs s o i x y,
  filter_ok K /\ rate_ok K /\ creaches K evs s o /\ c_sname s <> [] /\ c_hname s <> [] /\
  res (c_step K (CeContent i [] [] []) s) = Throw x /\
  res (c_step K (CeContent i wild_content [] []) s) = Throw y /\
  res (c_step K (CeContent i empty_content [] []) s) = UB UbOutOfBounds.
Proof.
  exists Kc, evs_c2, s_c2, o_c2, 1%nat, ExTlv, ExNotNumber. split; [exact filter_c|]. split; [exact rate_c|]. split; [exact reach_c2|].
  split; [discriminate|]. split; [discriminate|]. split; [|split]; vm_compute; reflexivity.
Qed.
Print Assumptions C43_consumer_survives_any_content_refuted.

(** * C44 *)
(** whatever sequence numbers a reply advances is reported; also, nothing is lost if the application
    subscribes in the callback.  Missing: replies that make the handler throw (see below). *)
Theorem C44_consumer_changes_are_reported_partial : forall K evs s o e s' o' p n,
  creaches K evs s o -> c_step K e s = (s', o', Ok tt) -> ~ In (CUnsub p) (calls_of e) ->
  seq0 (seq_of p s) < n <= seq0 (seq_of p s') ->
  (exists l m, In (CoUpdate l) o' /\ In m l /\ mi_prefix m = p /\ mi_low m <= n <= mi_high m) \/
  (seq_of p s = None /\ exists v cb, In (CSub p v cb) (calls_of e) /\ n <= v).
Proof.
  intros K evs s o e s' o' p n R E N H. destruct (creaches_inv _ _ _ _ R) as (b0 & _ & D & _).
  destruct (step_covers b0 K e s s' o' tt p E D N n H) as [(r & R1 & R2)|X]; auto. left.
  clear - R1 R2. induction o' as [|[k a|av|l|b] o IH]; simpl in R1; try contradiction;
    try (destruct (IH R1) as (l' & m & A & B); exists l', m; split; [right|]; auto; fail).
  apply in_app_or in R1 as [R1|R1].
  - apply in_map_iff in R1 as (m & <- & M). apply filter_In in M as [M1 M2]. apply name_eqb_eq in M2. exists l, m. simpl in R2. split; [left|]; auto.
  - destruct (IH R1) as (l' & m & A & B). exists l', m. split; [right|]; auto.
Qed.
Print Assumptions C44_consumer_changes_are_reported_partial.

Definition s_c3 : cs := Eval vm_compute in st (c_step Kc (CeContent 1 (encode_names [append_number pa 7]) [] []) s_c2).
Example C44_consumer_example : exists o',
  c_step Kc (CeContent 1 (encode_names [append_number pa 7]) [] []) s_c2 = (s_c3, o', Ok tt) /\
  seq_of pa s_c2 = Some 4 /\ seq_of pa s_c3 = Some 7 /\ In (CoUpdate [mkMissing pa 5 7 0]) o'.
Proof. eexists. split; [vm_compute; reflexivity|]. split; [reflexivity|]. split; [reflexivity|]. left. reflexivity. Qed.

(** the first name of the content is taken, the second makes the handler throw *)
Theorem C44_consumer_every_change_is_reported_refuted : exists K evs s o i buf p s' x,
  filter_ok K /\ rate_ok K /\ creaches K evs s o /\ is_subscribed p s = true /\
  c_step K (CeContent i buf [] []) s = (s', [], Throw x) /\
  seq_of p s = Some 4 /\ seq_of p s' = Some 7.
Proof.
  eexists Kc, evs_c2, s_c2, o_c2, 1%nat, (encode_names [append_number pa 7; [gen [x70]; gen [x61; x62; x63]]]), pa, _, _.
  split; [exact filter_c|]. split; [exact rate_c|]. split; [exact reach_c2|]. split; [reflexivity|].
  split; [vm_compute; reflexivity|]. split; reflexivity.
Qed.
Print Assumptions C44_consumer_every_change_is_reported_refuted.

(** * C45 *)
(** over a whole history in which [p] is never unsubscribed the ranges reported for [p] are in
    order and disjoint, so nothing is announced twice *)
Theorem C45_consumer_announced_at_most_once : forall K evs s o p,
  creaches K evs s o -> (forall e, In e evs -> ~ In (CUnsub p) (calls_of e)) ->
  StronglySorted (fun a b => snd a < fst b) (creported p o) /\
  (forall r, In r (creported p o) -> 0 < fst r /\ snd r <= seq0 (seq_of p s)).
Proof.
  intros K evs s o p R N. unfold creaches, c_start in R. destruct (c_new K) as [s0|x|x|] eqn:E0; try discriminate.
  assert (creaches K [] s0 []) as R0 by (unfold creaches, c_start; rewrite E0; reflexivity).
  destruct (later_tells _ _ _ _ p R0 _ _ _ R N) as [A B _ _]. split; [exact A|]. intros r Hr. destruct (B r Hr) as [B1 B2].
  split; [lia|exact B2].
Qed.
Print Assumptions C45_consumer_announced_at_most_once.

(** ... and none is skipped: from the moment a prefix is known, all numbers up to the current one
    are announced.  Missing: histories with contents that make the handler throw (see C44). *)
Theorem C45_consumer_none_skipped_partial : forall K evs1 evs2 s1 o1 s2 o2 p n,
  creaches K evs1 s1 o1 -> creaches K (evs1 ++ evs2) s2 (o1 ++ o2) -> seq_of p s1 <> None ->
  (forall e, In e evs2 -> ~ In (CUnsub p) (calls_of e)) ->
  (forall e buf, In e evs2 -> In buf (content_of e) -> cgood_content buf) ->
  seq0 (seq_of p s1) < n <= seq0 (seq_of p s2) ->
  exists r, In r (creported p o2) /\ fst r <= n <= snd r.
Proof.
  intros K evs1 evs2. induction evs2 as [|e evs2 IH] using rev_ind; intros s1 o1 s2 o2 p n R1 R2 Hk N G H.
  - rewrite app_nil_r in R2. unfold creaches in *. rewrite R1 in R2. injection R2 as -> _. lia.
  - rewrite app_assoc in R2. destruct (creaches_snoc _ _ _ _ _ R2) as (s3 & o3 & o4 & r & R3 & E & Eo & F).
    destruct (creaches_inv _ _ _ _ R3) as (b0 & _ & D & _).
    assert (exists o5, o3 = o1 ++ o5) as [o5 ->].
    { unfold creaches, c_start in R1, R3. destruct (c_new K); try discriminate. unfold c_run in *. rewrite run_app, R1 in R3.
      destruct (run (c_step K) s1 evs2) as [[x y]|]; [|discriminate]. injection R3 as _ <-. eauto. }
    rewrite <- app_assoc in Eo. apply app_inv_head in Eo. subst o2.
    assert (In e (evs2 ++ [e])) as Ie by (apply in_or_app; right; left; reflexivity).
    assert (exists x, r = Ok x) as [x ->].
    { destruct r as [x|x|x|]; try destruct F; [eauto|]. exfalso. eapply (step_no_throw K e s3); [|rewrite E; reflexivity].
      intros buf. apply G. exact Ie. }
    assert (seq_of p s3 <> None) as Hk3.
    { assert (exists o6, c_run K s1 evs2 = Some (s3, o6)) as [o6 R6].
      { destruct (creaches_split _ _ _ _ _ R3) as (x1 & x2 & x3 & X1 & X2 & _). unfold creaches in R1, X1. rewrite R1 in X1. injection X1 as <- _. eauto. }
      apply (te_known _ _ _ _ (later_tells _ _ _ _ p R1 _ _ _ R6 (fun y Hy => N y (in_or_app _ _ _ (or_introl Hy)))) Hk). }
    rewrite creported_app. destruct (N.le_gt_cases n (seq0 (seq_of p s3))) as [L|L].
    + destruct (IH s1 o1 s3 o5 p n R1 R3 Hk) as (q & Q1 & Q2).
      * intros y Hy. apply N, in_or_app. auto.
      * intros y buf Hy. apply G, in_or_app. auto.
      * lia.
      * exists q. split; [apply in_or_app; auto|exact Q2].
    + destruct (step_covers b0 K e s3 s2 o4 x p E D (N e Ie) n) as [(q & Q1 & Q2)|[Q _]]; [unfold seq_of, known in *; lia| |contradiction].
      exists q. split; [apply in_or_app; auto|exact Q2].
Qed.
Print Assumptions C45_consumer_none_skipped_partial.
(** a reply that makes the handler throw after its first name: 5, 6 and 7 are never announced *)
Theorem C45_consumer_none_skipped_refuted : exists K evs1 evs2 s1 o1 s2 o2 p,
  filter_ok K /\ rate_ok K /\ creaches K evs1 s1 o1 /\ creaches K (evs1 ++ evs2) s2 (o1 ++ o2) /\
  (forall e, In e evs2 -> ~ In (CUnsub p) (calls_of e)) /\ is_subscribed p s2 = true /\
  seq_of p s1 = Some 4 /\ seq_of p s2 = Some 7 /\ creported p o2 = [].
Proof.
  eexists Kc, evs_c2, [CeContent 1 (encode_names [append_number pa 7; [gen [x70]; gen [x61; x62; x63]]]) [] []], s_c2, o_c2, _, [], pa.
  split; [exact filter_c|]. split; [exact rate_c|]. split; [exact reach_c2|]. split; [apply reach_c; vm_compute; reflexivity|].
  split; [intros e [<-|[]] H; exact H|]. split; [reflexivity|]. split; [reflexivity|]. split; reflexivity.
Qed.
Print Assumptions C45_consumer_none_skipped_refuted.

Definition evs_c4 : list cev := [CeContent 1 (encode_names [append_number pa 7]) [] [];
  CeSegment 2 (seg sync_name Blob); CeContent 2 (encode_names [append_number pa 6; append_number pa 9]) [] []].
Example C45_consumer_example : exists s o2, creaches Kc (evs_c2 ++ evs_c4) s (o_c2 ++ o2) /\
  seq_of pa s_c2 = Some 4 /\ seq_of pa s = Some 9 /\ creported pa o2 = [(5, 7); (8, 9)] /\
  creported pa (o_c2 ++ o2) = [(4, 4); (5, 7); (8, 9)] /\
  (forall e, In e (evs_c2 ++ evs_c4) -> ~ In (CUnsub pa) (calls_of e)).
Proof.
  eexists _, _. split; [apply reach_c; vm_compute; reflexivity|]. split; [reflexivity|]. split; [reflexivity|]. split; [reflexivity|]. split; [reflexivity|].
  assert (forallb (fun e => match calls_of e with [] => true | [CUnsub _] => false | [_] => true | _ => false end) (evs_c2 ++ evs_c4) = true) as C by reflexivity.
  intros e He H. pose proof (proj1 (forallb_forall _ _) C e He) as X. simpl in X. destruct (calls_of e) as [|[] []]; simpl in H;
    try discriminate; intuition discriminate.
Qed.

(** * C46 *)
Lemma did_update A s o s' l : did A s o s' -> In (CoUpdate l) o ->
  exists p v cb, In (CSub p v cb) A /\ v <> 0 /\ l = [mkMissing p v v 0].
Proof.
  induction 1 as [s o s' X Y|s p v cb b s' X Y Z P Q R|s p b s' X Y Z P Q R|s o1 s1 o2 s2 D1 I1 D2 I2].
  - intros H. unfold silent in Y. rewrite Forall_forall in Y. destruct (Y _ H l eq_refl).
  - destruct cb; simpl; [|intros []]. destruct (N.eqb_spec v 0); simpl; [intros []|]. intros [[= <-]|[]]. eauto 6.
  - intros [].
  - intros H. apply in_app_or in H as [H|H]; auto.
Qed.
Lemma upd_In l l' : In (CoUpdate l) (upd l') -> l = l'.
Proof. destruct l'; simpl; [intros []|]. intros [[= <-]|[]]. reflexivity. Qed.
Lemma report_of_step K e s l : fine (res (c_step K e s)) -> In (CoUpdate l) (outs (c_step K e s)) ->
  (exists p v cb, In (CSub p v cb) (calls_of e) /\ v <> 0 /\ l = [mkMissing p v v 0]) \/
  exists g, report_chain (fun p => seq_of p s) l g.
Proof.
  intros F. destruct (c_step_view K e s F) as [o s' r Di _|s' r buf e' _ _ S _|s0 s1 r names buf e' B1 B2 S T _ _|s0 s1 r names buf e' B1 B2 S T _
    |s0 s1 s' names buf l' o r B1 B2 S T Di _ _|s0 s1 s2 s' names buf l' av o1 o2 r B1 B2 S T D1 D2 _]; intros H; try (destruct H; fail).
  - left. eapply did_update; eauto.
  - apply in_app_or in H as [H|H]; [|left; eapply did_update; eauto]. right. apply upd_In in H as ->.
    destruct (take_sync_inv names s0) as (_ & _ & C & _). rewrite T in C. exists (known s1).
    eapply report_chain_ext; [|intros q; reflexivity|apply C; reflexivity]. intros p. unfold known. destruct S as [-> _]. reflexivity.
  - destruct H as [H|H]; [discriminate|]. apply in_app_or in H as [H|H]; [left; eapply did_update; [exact D1|exact H]|].
    apply in_app_or in H as [H|H]; [|left; eapply did_update; [exact D2|exact H]]. right. apply upd_In in H as ->.
    destruct (take_hello_inv names [] s0) as (_ & _ & C & _). rewrite T in C. exists (known s1).
    eapply report_chain_ext; [|intros q; reflexivity|apply (C _ eq_refl)]. intros p. unfold known. destruct S as [-> _]. reflexivity.
Qed.
(** a report starts from what was known before the event: a range starts right after the number known
    and ends at a higher one; subscriptions with a number report just that number *)
Theorem C45_consumer_ranges_follow_each_other : forall K evs s o e l,
  creaches K evs s o -> fine (res (c_step K e s)) -> In (CoUpdate l) (outs (c_step K e s)) ->
  (exists p v cb, In (CSub p v cb) (calls_of e) /\ v <> 0 /\ l = [mkMissing p v v 0]) \/
  exists g, report_chain (fun p => seq_of p s) l g.
Proof. intros K evs s o e l _. apply report_of_step. Qed.
Print Assumptions C45_consumer_ranges_follow_each_other.

(** Missing: the range from 1 to 0 for a prefix that was not known *)
Theorem C46_consumer_ranges_nonempty_partial : forall K evs s o e l m,
  creaches K evs s o -> fine (res (c_step K e s)) -> In (CoUpdate l) (outs (c_step K e s)) -> In m l ->
  mi_low m <= mi_high m \/
  (mi_low m = 1 /\ mi_high m = 0 /\ seq_of (mi_prefix m) s = None /\ is_subscribed (mi_prefix m) s = false).
Proof.
  intros K evs s o e l m R F Hl Hm. destruct (report_of_step K e s l F Hl) as [(p & v & cb & _ & _ & ->)|[g C]].
  - destruct Hm as [<-|[]]. left. simpl. lia.
  - destruct (chain_nonempty (fun p => seq_of p s) _ m l _ (fun _ H => H) C Hm) as [H|(A & B & U)]; auto. right. split; auto. split; auto. split; auto.
    destruct (creaches_inv _ _ _ _ R) as (b0 & _ & D & _). destruct (is_subscribed (mi_prefix m) s) eqn:E; auto.
    destruct (di_known _ _ D _ E). exact U.
Qed.
Print Assumptions C46_consumer_ranges_nonempty_partial.
Example C46_consumer_example : creaches Kc evs_c2 s_c2 o_c2 /\
  fine (res (c_step Kc (CeContent 1 (encode_names [append_number pa 7]) [] []) s_c2)) /\
  In (CoUpdate [mkMissing pa 5 7 0]) (outs (c_step Kc (CeContent 1 (encode_names [append_number pa 7]) [] []) s_c2)).
Proof.
  split; [exact reach_c2|]. split; [vm_compute; auto|]. destruct C44_consumer_example as (o' & E & _ & _ & I).
  unfold outs. rewrite E. exact I.
Qed.

(** subscribed when the interest was sent, unsubscribed when the reply comes *)
Definition evs_c5 : list cev := evs_c2 ++ [CeCall (CUnsub pa)].
Definition s_c5 : cs := Eval vm_compute in fst (after evs_c5).
Definition o_c5 : list cout := Eval vm_compute in snd (after evs_c5).
Lemma reach_c5 : creaches Kc evs_c5 s_c5 o_c5.
Proof. apply reach_c. vm_compute. reflexivity. Qed.
Theorem C46_consumer_ranges_nonempty_refuted : exists K evs s o i buf l m,
  filter_ok K /\ rate_ok K /\ creaches K evs s o /\ cgood_content buf /\
  In (CoUpdate l) (outs (c_step K (CeContent i buf [] []) s)) /\ In m l /\ mi_high m < mi_low m.
Proof.
  exists Kc, evs_c5, s_c5, o_c5, 1%nat, (encode_names [append_number pa 0]), [mkMissing pa 1 0 0], (mkMissing pa 1 0 0).
  split; [exact filter_c|]. split; [exact rate_c|]. split; [exact reach_c5|].
  split; [exists [append_number pa 0]; split; [vm_compute; reflexivity|repeat constructor; apply number_good; reflexivity]|].
  split; [vm_compute; left; reflexivity|]. split; [left; reflexivity|]. vm_compute. reflexivity.
Qed.
Print Assumptions C46_consumer_ranges_nonempty_refuted.

(** * C47 *)
Theorem C47_remove : forall K evs s o p, filter_ok K -> creaches K evs s o ->
  exists s', c_step K (CeCall (CUnsub p)) s = (s', [CoResult (is_subscribed p s)], Ok tt) /\
    is_subscribed p s' = false /\ (is_subscribed p s = true -> seq_of p s' = None) /\
    forall q, q <> p -> is_subscribed q s' = is_subscribed q s /\ seq_of q s' = seq_of q s.
Proof.
  intros K evs s o p (b & Eb & Hb) R. destruct (creaches_inv _ _ _ _ R) as (b0 & E0 & D & _). rewrite Eb in E0. injection E0 as <-.
  cbn [c_step call]. pose proof (remove_sub_cases p s) as C. fold (is_subscribed p s) in C. unfold mbind. destruct (is_subscribed p s) eqn:E.
  - destruct (di_bloom _ _ D) as (ops & Ro & _).
    destruct (run_safe K b Eb Hb (ops ++ BClear :: map BIns (nm_keys (nm_erase p (c_subs s))))) as [b' B].
    rewrite bloom_run_app, Ro in B. cbn [obind bloom_run] in B. rewrite <- insert_all_run in B. rewrite B in C. rewrite C.
    eexists. split; [reflexivity|]. unfold is_subscribed, seq_of. cbn [c_subs c_prefixes cset_bloom cset_subs cset_prefixes]. unfold nm_mem.
    split; [rewrite nm_find_erase_same by apply D; reflexivity|]. split; [intros _; apply nm_find_erase_same, D|].
    intros q Hq. rewrite !nm_find_erase_other by auto. auto.
  - rewrite C. exists s. split; [reflexivity|]. split; [exact E|]. split; [discriminate|auto].
Qed.
Print Assumptions C47_remove.

(** addSubscription looks at the sequence numbers it knows, not at the subscriptions.
    Missing: prefixes it knows without being subscribed to them (see below). *)
Theorem C47_add_partial : forall K evs s o p v cb, filter_ok K -> creaches K evs s o ->
  exists s' u, c_step K (CeCall (CSub p v cb)) s =
      (s', u ++ [CoResult (match seq_of p s with None => true | Some _ => false end)], Ok tt) /\
    (seq_of p s = None -> is_subscribed p s' = true /\ seq_of p s' = Some v /\
       u = if cb && negb (v =? 0) then [CoUpdate [mkMissing p v v 0]] else []) /\
    (seq_of p s <> None -> s' = s /\ u = []) /\
    forall q, q <> p -> is_subscribed q s' = is_subscribed q s /\ seq_of q s' = seq_of q s.
Proof.
  intros K evs s o p v cb (b & Eb & Hb) R. destruct (creaches_inv _ _ _ _ R) as (b0 & E0 & D & _). rewrite Eb in E0. injection E0 as <-.
  cbn [c_step call]. pose proof (add_sub_cases K p v cb s) as C. fold (seq_of p s) in C. unfold mbind. destruct (seq_of p s) as [w|] eqn:E.
  - rewrite C. exists s, []. split; [reflexivity|]. split; [discriminate|]. auto.
  - destruct (di_bloom _ _ D) as (ops & Ro & _). destruct (insert_safe K b Eb Hb ops (c_bloom s) p Ro) as [b' B]. rewrite B in C. rewrite C.
    eexists _, _. split; [reflexivity|]. unfold is_subscribed, seq_of. cbn [c_subs c_prefixes cset_bloom cset_subs cset_prefixes].
    split; [intros _; rewrite nm_mem_emplace, name_eqb_refl, nm_find_set_same; auto|]. split; [congruence|].
    intros q Hq. rewrite nm_mem_emplace, nm_find_set_other by auto. destruct (name_eqb q p) eqn:Q; [apply name_eqb_eq in Q; contradiction|auto].
Qed.
Print Assumptions C47_add_partial.

(** ... so it is the subscriptions that count as long as replies name nothing else *)
Lemma did_known b0 A s o s' : did A s o s' -> dinv b0 s -> (forall p, known s p <> None -> is_subscribed p s = true) ->
  forall p, known s' p <> None -> is_subscribed p s' = true.
Proof.
  unfold is_subscribed. induction 1 as [s o s' (X & Y & _) _|s p v cb b s' X Y Z P Q R|s p b s' X Y Z P Q R|s o1 s1 o2 s2 D1 I1 D2 I2]; intros D H q.
  - unfold known. rewrite X, Y. apply H.
  - unfold known. rewrite P, Q, nm_find_set, nm_mem_emplace. destruct (name_eqb q p); [reflexivity|apply H].
  - unfold known. rewrite P, Q, mem_find_some, !nm_find_erase by apply D. destruct (name_eqb q p); [auto|]. intros G. apply mem_find_some, H, G.
  - apply I2; [eapply dinv_did; eauto|]. apply I1; auto.
Qed.
Lemma known_subscribed K evs : forall s o, creaches K evs s o -> only_subscribed K evs ->
  forall p, known s p <> None -> is_subscribed p s = true.
Proof.
  induction evs as [|e evs IH] using rev_ind; intros s o R Os.
  - unfold creaches, c_start, c_new in R. destruct (bloom_new _ _ _); try discriminate. injection R as <- <-. intros p []. reflexivity.
  - destruct (creaches_snoc _ _ _ _ _ R) as (s1 & o1 & o2 & r & R1 & E & -> & F).
    destruct (creaches_inv _ _ _ _ R1) as (b0 & _ & D & _).
    assert (forall p, known s1 p <> None -> is_subscribed p s1 = true) as H1.
    { apply (IH s1 o1 R1). intros a i n buf sc1 sc2 b s2 o3 names p y -> . apply (Os a i n buf sc1 sc2 (b ++ [e])). rewrite <- app_assoc. reflexivity. }
    assert (forall buf names p x, is_sync_reply e s1 -> In buf (content_of e) -> state_of_buffer buf = Ok names -> In (p ++ [x]) names ->
      is_subscribed p s1 = true) as Oe.
    { intros buf names p x (i & n & buf' & sc1 & sc2 & -> & Fi) [<-|[]] B Hx. exact (Os evs i n buf' sc1 sc2 [] s1 o1 names p x eq_refl R1 Fi B Hx). }
    assert (forall s0 l m, same_data s1 s0 -> report_chain (known s0) l (known (cset_prefixes m s0)) ->
      Forall (fun x => is_subscribed (mi_prefix x) s1 = true) l -> forall p, known (cset_prefixes m s0) p <> None -> is_subscribed p (cset_prefixes m s0) = true) as T.
    { intros s0 l m S C Fa p Hp. assert (forall q, is_subscribed q s1 = is_subscribed q s0) as Sq.
      { intros q. unfold is_subscribed. destruct S as (_ & -> & _). reflexivity. }
      change (is_subscribed p (cset_prefixes m s0)) with (is_subscribed p s0). rewrite <- Sq.
      destruct (known (cset_prefixes m s0) p) as [v|] eqn:Ev; [|congruence].
      destruct (chain_values _ _ _ _ _ C Ev) as [V|(x & X1 & <- & X3)].
      - apply H1. assert (known s1 p = known s0 p) as -> by (unfold known; destruct S as [-> _]; reflexivity). congruence.
      - rewrite Forall_forall in Fa. exact (Fa x X1). }
    assert (forall s0 l names buf, is_sync_reply e s1 -> same_data s1 s0 -> In buf (content_of e) -> state_of_buffer buf = Ok names ->
      Forall (fun x => brings names (mi_prefix x) (mi_high x)) l -> Forall (fun x => is_subscribed (mi_prefix x) s1 = true) l) as Ts.
    { intros s0 l names buf Y S B1 B2 Fa. eapply Forall_impl; [|exact Fa]. intros x (y & Y1 & _). eapply Oe; eauto. }
    assert (forall s0 l names, same_data s1 s0 ->
      Forall (fun x => brings names (mi_prefix x) (mi_high x) /\ nm_mem (mi_prefix x) (c_subs s0) = true /\ 1 <= mi_high x) l ->
      Forall (fun x => is_subscribed (mi_prefix x) s1 = true) l) as Th.
    { intros s0 l names S Fa. eapply Forall_impl; [|exact Fa]. intros x (_ & Y1 & _). unfold is_subscribed. destruct S as (_ & <- & _). exact Y1. }
    assert (fine (res (c_step K e s1))) as F' by (rewrite E; exact F). pose proof (c_step_view K e s1 F') as V. rewrite E in V. cbn [st outs res fst snd] in V.
    inversion V as [o' s'' r' Di _|s'' r' buf e' _ _ S Er|s0 s2 r' names buf e' B1 B2 S Ta Er|s0 s2 r' names buf e' B1 B2 S Ta Er
      |s0 s2 s'' names buf l o' r' B1 B2 S Ta Di _|s0 s2 s3 s'' names buf l av o3 o4 r' B1 B2 S Ta D1 D2 _]; subst.
    + eapply did_known; eauto.
    + intros p. unfold known, is_subscribed. destruct S as (-> & -> & _). apply H1.
    + destruct (take_sync_inv names s0) as (_ & (m & M1 & M2) & _ & l & C & Fa). rewrite Ta in *. cbn [st fst snd] in *. subst s. eapply T; eauto.
    + destruct (take_hello_inv names [] s0) as (_ & (m & M1 & M2) & _ & l & C & Fa). rewrite Ta in *. cbn [st fst snd] in *. subst s. eapply T; eauto.
    + destruct (take_sync_inv names s0) as (_ & (m & M1 & M2) & _ & l2 & C & Fa). rewrite Ta in *. cbn [st fst snd] in *. subst s2.
      apply (dinv_same _ _ _ S) in D. eapply did_known; [exact Di| |eapply T; eauto]. eapply dinv_chain; [exact D|apply M2, D|exact C].
    + destruct (take_hello_inv names [] s0) as (_ & (m & M1 & M2) & _ & l2 & C & Fa). rewrite Ta in *. cbn [st fst snd] in *. subst s2.
      apply (dinv_same _ _ _ S) in D. assert (dinv b0 (cset_prefixes m s0)) as D' by (eapply dinv_chain; [exact D|apply M2, D|exact C]).
      eapply did_known; [exact D2|eapply dinv_did; eauto|]. eapply did_known; [exact D1|exact D'|]. eapply T; eauto.
Qed.
Theorem C47_add_when_replies_match_partial : forall K evs s o p v cb, filter_ok K -> creaches K evs s o -> only_subscribed K evs ->
  exists s' u, c_step K (CeCall (CSub p v cb)) s = (s', u ++ [CoResult (negb (is_subscribed p s))], Ok tt) /\
    is_subscribed p s' = true /\
    forall q, q <> p -> is_subscribed q s' = is_subscribed q s.
Proof.
  intros K evs s o p v cb Fk R Os. destruct (C47_add_partial K evs s o p v cb Fk R) as (s' & u & E & A & B & C).
  exists s', u. destruct (creaches_inv _ _ _ _ R) as (b0 & _ & D & _).
  destruct (is_subscribed p s) eqn:S.
  - pose proof (di_known _ _ D p S) as Hk. change (known s p) with (seq_of p s) in Hk. destruct (seq_of p s) as [w|]; [|congruence].
    destruct B as [-> ->]; [discriminate|]. split; [exact E|]. auto.
  - destruct (seq_of p s) as [w|] eqn:Q.
    + pose proof (known_subscribed K evs s o R Os p) as X. change (known s p) with (seq_of p s) in X. rewrite Q in X. rewrite X in S; discriminate.
    + destruct A as (A1 & A2 & _); auto. split; [exact E|]. split; [exact A1|]. intros q Hq. apply C. exact Hq.
Qed.
Print Assumptions C47_add_when_replies_match_partial.

(** a reply to an interest that still named the prefix *)
Definition evs_c6 : list cev := evs_c5 ++ [CeContent 1 (encode_names [append_number pa 7]) [] []].
Definition s_c6 : cs := Eval vm_compute in fst (after evs_c6).
Definition o_c6 : list cout := Eval vm_compute in snd (after evs_c6).
Lemma reach_c6 : creaches Kc evs_c6 s_c6 o_c6.
Proof. apply reach_c. vm_compute. reflexivity. Qed.
Theorem C47_add_refuted : exists K evs s o p v,
  filter_ok K /\ rate_ok K /\ creaches K evs s o /\ is_subscribed p s = false /\
  c_step K (CeCall (CSub p v true)) s = (s, [CoResult false], Ok tt).
Proof.
  exists Kc, evs_c6, s_c6, o_c6, pa, 0. split; [exact filter_c|]. split; [exact rate_c|]. split; [exact reach_c6|].
  split; [reflexivity|]. vm_compute. reflexivity.
Qed.
Print Assumptions C47_add_refuted.
Example C47_example : filter_ok Kc /\ creaches Kc evs_c2 s_c2 o_c2 /\ is_subscribed pa s_c2 = true /\ is_subscribed pb s_c2 = true /\
  is_subscribed [] s_c2 = false.
Proof. split; [exact filter_c|]. split; [exact reach_c2|]. repeat split. Qed.

(** * C48 *)
(** the filter is that of the subscribed names, however they were subscribed and unsubscribed *)
Theorem C48_filter_is_the_subscriptions : forall K evs s o l, filter_ok K -> creaches K evs s o -> lists_subs s l ->
  filter_of K l (c_bloom s).
Proof.
  intros K evs s o l (b & Eb & Hb) R Hl. destruct (creaches_inv _ _ _ _ R) as (b0 & E0 & D & _). rewrite Eb in E0. injection E0 as <-.
  exists b. split; [exact Eb|]. destruct (di_bloom _ _ D) as (ops & Ro & Io). rewrite <- Ro.
  apply (C17_order_independent _ _ _ _ _ _ Eb Hb). intros n. change (map BIns l) with ([] ++ map BIns l).
  assert (In n (inserted ([] ++ map BIns l)) <-> In n l) as ->; [|rewrite Io; apply Hl].
  unfold inserted. simpl. assert (forall acc, In n (inserted_after acc (map BIns l)) <-> In n acc \/ In n l) as G.
  { clear. induction l as [|x l IH]; intros acc; simpl; [tauto|]. rewrite IH. simpl. tauto. }
  rewrite G. simpl. tauto.
Qed.
Print Assumptions C48_filter_is_the_subscriptions.
(** there is such a list *)
Lemma subs_listed s : lists_subs s (nm_keys (c_subs s)).
Proof. intros p. unfold is_subscribed. rewrite nm_In_keys, nm_mem_find. reflexivity. Qed.

Lemma carried K evs s o n1 rest l : filter_ok K -> rate_ok K -> creaches K evs s o -> lists_subs s l ->
  append_bloom (sync_prefix K) (c_bloom s) = Ok n1 -> rest <> [] ->
  exists b, carries_filter K (n1 ++ rest) b /\ filter_of K l b /\ forall p, is_subscribed p s = true -> bloom_contains b p = Ok true.
Proof.
  intros Fk (Hc & t & Hr & Ht) R Hl Ea Hn. destruct (C48_filter_is_the_subscriptions K evs s o l Fk R Hl) as (b0 & E0 & Rb).
  exists (c_bloom s). rewrite Hr in E0.
  destruct (C18_wire _ _ _ _ _ _ _ _ Hc Ht E0 Rb Ea) as (c1 & c2 & c3 & -> & _ & b' & B1 & -> & _). split; [|split].
  - exists c1, c2, c3, rest. split; [rewrite <- app_assoc; reflexivity|]. auto.
  - exists b0. rewrite Hr. auto.
  - intros p Hp. apply Hl in Hp. destruct Fk as (b1 & Q1 & Q2). rewrite Hr, E0 in Q1. injection Q1 as <-.
    destruct (C16_no_false_negatives _ _ _ _ (map BIns l) E0 Q2) as (b2 & B2 & C). rewrite Rb in B2. injection B2 as <-.
    apply C. assert (forall acc, In p (inserted_after acc (map BIns l)) <-> In p acc \/ In p l) as G.
    { clear. induction l as [|x l IH]; intros acc; simpl; [tauto|]. rewrite IH. simpl. tauto. }
    unfold inserted. apply G. auto.
Qed.
(** every sync interest carries it, and the producer's copy contains every subscribed name *)
Theorem C48_interests_carry_it : forall K evs s o e n l, filter_ok K -> rate_ok K -> creaches K evs s o ->
  Forall keeps_list (calls_of e) -> In (CoInterest KSync n) (outs (c_step K e s)) -> lists_subs s l ->
  exists b, carries_filter K n b /\ filter_of K l b /\ forall p, is_subscribed p s = true -> bloom_contains b p = Ok true.
Proof.
  intros K evs s o e n l Fk Rk R Hk Hin Hl.
  destruct (carry_step K (c_bloom s) e Hk s eq_refl) as [_ P]. rewrite Forall_forall in P.
  destruct (P _ Hin n eq_refl) as (n1 & rest & A & -> & Hr). eapply carried; eauto.
Qed.
Print Assumptions C48_interests_carry_it.
(** also the interest that follows a reply, whatever the application did in its callback *)
Theorem C48_next_interest_carries_it : forall K evs s o i m buf sc1 sc2 s' o' l, filter_ok K -> rate_ok K -> creaches K evs s o ->
  cfetch i (c_live s) = Some (KSync, m) -> c_type s = Blob ->
  c_step K (CeContent i buf sc1 sc2) s = (s', o', Ok tt) -> lists_subs s' l ->
  exists o1 n b, o' = o1 ++ [CoInterest KSync n] /\ carries_filter K n b /\ filter_of K l b /\
    forall p, is_subscribed p s' = true -> bloom_contains b p = Ok true.
Proof.
  intros K evs s o i m buf sc1 sc2 s' o' l Fk Rk R Hi Ht E Hl. pose proof (creaches_step _ _ _ _ _ _ _ _ R E I) as R'.
  cbn [c_step] in E. rewrite mbind_get, Hi in E. unfold finish in E. rewrite mbind_mod, Ht in E. cbn [is_nack] in E.
  unfold on_csync_data in E. rewrite mbind_mod, mbind_lift in E. destruct (state_of_buffer buf) as [names|x|x|]; try discriminate.
  set (s1 := cset_iblt _ _) in E. destruct (take_sync names s1) as [[s2 o2] r2] eqn:T. rewrite (mbind_run _ _ _ _ _ _ T) in E.
  destruct r2 as [u|x|x|]; try discriminate.
  assert (forall s3 o3 z, send_sync K s3 = (s', o3, Ok z) -> exists n b, o3 = [CoInterest KSync n] /\ carries_filter K n b /\ filter_of K l b /\
    forall p, is_subscribed p s' = true -> bloom_contains b p = Ok true) as G.
  { intros s3 o3 z. rewrite send_sync_eq. destruct (c_iblt s3) as [|c r] eqn:Ei; [discriminate|].
    destruct (append_bloom (sync_prefix K) (c_bloom s3)) as [n1|x|x|] eqn:A; try discriminate. intros [= Es <- <-].
    assert (c_bloom s' = c_bloom s3) as Eb by (rewrite <- Es; destruct (c_sync s3); reflexivity). rewrite <- Eb in A.
    destruct (carried K _ s' _ n1 (c :: r) l Fk Rk R' Hl A) as (b & C1 & C2); [discriminate|]. exists (n1 ++ c :: r), b. auto. }
  match type of E with match ?x with _ => _ end = _ => destruct x as [[s4 o4] r4] eqn:Ex end. injection E as -> <- ->.
  set (up := match u with [] => mret tt | _ => _ end) in Ex. destruct (up s2) as [[s3 o3] r3] eqn:U. rewrite (mbind_run _ _ _ _ _ _ U) in Ex.
  destruct r3 as [y|x|x|]; try discriminate. destruct (send_sync K s3) as [[s5 o5] r5] eqn:Es. injection Ex as -> <- ->.
  destruct (G _ _ _ Es) as (n & b & -> & C). exists (o2 ++ o3), n, b. rewrite app_assoc. auto.
Qed.
Print Assumptions C48_next_interest_carries_it.
Example C48_example : filter_ok Kc /\ rate_ok Kc /\ creaches Kc evs_c5 s_c5 o_c5 /\ lists_subs s_c5 [pb] /\
  (exists n, In (CoInterest KSync n) (outs (c_step Kc (CeCall CSendSync) s_c5))) /\
  cfetch 1 (c_live s_c2) <> None /\ c_type s_c2 = Blob /\
  res (c_step Kc (CeContent 1 two_content [] [CSub [] 0 false; CUnsub pa; CSub pa 1 true]) s_c2) = Ok tt.
Proof.
  split; [exact filter_c|]. split; [exact rate_c|]. split; [exact reach_c5|]. split; [exact (subs_listed s_c5)|].
  split; [eexists; vm_compute; left; reflexivity|]. split; [discriminate|]. split; [reflexivity|]. vm_compute. reflexivity.
Qed.

(** * C49 *)
Theorem C49_never_decreases : forall K evs1 s1 o1 evs2 s2 o2 p v,
  creaches K evs1 s1 o1 -> c_run K s1 evs2 = Some (s2, o2) -> seq_of p s1 = Some v ->
  (forall e, In e evs2 -> ~ In (CUnsub p) (calls_of e)) ->
  exists v', seq_of p s2 = Some v' /\ v <= v'.
Proof.
  intros K evs1 s1 o1 evs2 s2 o2 p v R1 R2 Hv N. destruct (later_tells _ _ _ _ p R1 _ _ _ R2 N) as [_ _ A B].
  unfold known in A, B. unfold seq_of in *. rewrite Hv in A, B. destruct (nm_find p (c_prefixes s2)) as [v'|]; [|destruct A; [discriminate|reflexivity]].
  exists v'. auto.
Qed.
Print Assumptions C49_never_decreases.
Theorem C49_values_were_offered : forall K evs s o p v, creaches K evs s o -> seq_of p s = Some v ->
  exists e, In e evs /\ offers e p v.
Proof.
  intros K evs. induction evs as [|e evs IH] using rev_ind; intros s o p v R H.
  - unfold creaches, c_start, c_new in R. destruct (bloom_new _ _ _); try discriminate. injection R as <- <-. discriminate.
  - destruct (creaches_snoc _ _ _ _ _ R) as (s1 & o1 & o2 & r & R1 & E & -> & F).
    destruct (creaches_inv _ _ _ _ R1) as (b0 & _ & D & _). pose proof (step_values b0 K e s1 p v) as V. rewrite E in V. cbn [res st fst snd] in V.
    destruct (V F D H) as [H1|H1].
    + destruct (IH s1 o1 p v R1 H1) as (x & X1 & X2). exists x. split; [apply in_or_app; auto|exact X2].
    + exists e. split; [apply in_or_app; right; left; reflexivity|exact H1].
Qed.
Print Assumptions C49_values_were_offered.
(** a late reply does not take a number back *)
Example C49_example : exists s o, c_run Kc s_c2 [CeContent 1 (encode_names [append_number pa 3; append_number pb 8]) [] []] = Some (s, o) /\
  creaches Kc evs_c2 s_c2 o_c2 /\ seq_of pa s_c2 = Some 4 /\ seq_of pa s = Some 4 /\ seq_of pb s_c2 = Some 5 /\ seq_of pb s = Some 8.
Proof. eexists _, _. split; [vm_compute; reflexivity|]. split; [exact reach_c2|]. repeat split. Qed.

(** * C50 *)
(** the reply to the sync interest of fetch [i] is an application Nack: one packet, with FinalBlock *)
Theorem C50_nack_leads_to_hello : forall K evs s o i n d buf sc1 sc2, creaches K evs s o ->
  cfetch i (c_live s) = Some (KSync, n) -> d_type d = AppNack -> d_final d <> None ->
  exists s1 s2, c_step K (CeSegment i d) s = (s1, [CoInterest KHello (hello_prefix K)], Ok tt) /\
    c_step K (CeContent i buf sc1 sc2) s1 = (s2, [], Ok tt) /\
    (forall p, seq_of p s1 = seq_of p s /\ seq_of p s2 = seq_of p s) /\
    (forall p, is_subscribed p s1 = is_subscribed p s /\ is_subscribed p s2 = is_subscribed p s) /\
    c_iblt s2 = c_iblt s /\ c_timers s2 = c_timers s /\ c_type s2 = Blob /\
    exists j, c_hello s2 = Some j /\ cfetch j (c_live s2) = Some (KHello, hello_prefix K).
Proof.
  intros K evs s o i n d buf sc1 sc2 R Hi Hd Hf. destruct (creaches_inv _ _ _ _ R) as (b0 & _ & _ & L).
  pose proof (cfetch_In _ _ _ Hi) as Hin. pose proof (li_sync _ L _ _ Hin) as Hs.
  assert (c_hello s <> Some i) as Hh by (intros X; apply (li_ne _ L _ X); exact Hs).
  pose proof (live_lt _ _ _ _ L Hin) as Hlt.
  set (s0 := cset_type (d_type d) (cset_sname (name_prefix_back (d_name d) 2) s)).
  set (s1 := cstart KHello (hello_prefix K) (cstop (c_hello s) s0)).
  assert (forall i l, cfetch i (cwithout i l) = None) as Cw.
  { intros i' l. apply cfetch_None. intros x H. apply without_In in H as [_ H]. apply H. reflexivity. }
  assert (forall i j l, i <> j -> cfetch i (cwithout j l) = cfetch i l) as Cn.
  { intros i' j l Hij. induction l as [|[k y] l IH]; simpl; auto. destruct (Nat.eqb_spec j k) as [->|E]; simpl.
    - destruct (Nat.eqb_spec i' k); [congruence|exact IH].
    - destruct (Nat.eqb i' k); auto. }
  assert (c_started (cstop (c_hello s) s0) = c_started s) as Es by (destruct (c_hello s); reflexivity).
  assert (cfetch i (c_live (cstop (c_hello s) s0)) = Some (KSync, n)) as Ef.
  { unfold cstop. destruct (c_hello s) as [h|]; [|exact Hi]. cbn [c_live cset_live]. rewrite Cn; [exact Hi|congruence]. }
  assert (cfetch i (c_live s1) = Some (KSync, n)) as E1.
  { unfold s1. cbn [cstart c_live cset_hello cset_started cset_live cfetch]. rewrite Es.
    destruct (Nat.eqb_spec i (c_started s)); [lia|exact Ef]. }
  exists s1. eexists. split; [|split].
  - cbn [c_step]. rewrite mbind_get, Hi. destruct (d_final d); [|congruence]. rewrite mbind_mod, mbind_get. fold s0.
    change (c_type s0) with (d_type d). rewrite Hd. cbn [is_nack]. rewrite send_hello_eq. reflexivity.
  - cbn [c_step]. rewrite mbind_get, E1. unfold finish. rewrite mbind_mod.
    assert (c_type s1 = AppNack) as -> by (unfold s1, s0, cstop; destruct (c_hello s); exact Hd). cbn [is_nack]. reflexivity.
  - assert (c_prefixes s1 = c_prefixes s /\ c_subs s1 = c_subs s /\ c_iblt s1 = c_iblt s /\ c_timers s1 = c_timers s) as (P1 & P2 & P3 & P4)
      by (unfold s1, s0, cstop; destruct (c_hello s); repeat split).
    unfold seq_of, is_subscribed. cbn [c_prefixes c_subs c_iblt c_timers c_type cset_type cset_live]. rewrite P1, P2.
    split; [auto|]. split; [auto|]. split; [exact P3|]. split; [exact P4|]. split; [reflexivity|].
    exists (c_started s). cbn [c_hello c_live cset_type cset_live]. split; [unfold s1; cbn [cstart c_hello cset_hello]; rewrite Es; reflexivity|].
    rewrite Cn by lia. unfold s1. cbn [cstart c_live cset_hello cset_started cset_live cfetch]. rewrite Es, Nat.eqb_refl. reflexivity.
Qed.
Print Assumptions C50_nack_leads_to_hello.
(** a reply of type Blob is taken as data again, whatever came before: all its numbers are known
    afterwards *)
Theorem C50_data_again : forall K evs s o i n d buf names sc1 sc2 s1 s2 o2, creaches K evs s o ->
  cfetch i (c_live s) = Some (KSync, n) -> d_type d = Blob -> d_final d <> None ->
  c_step K (CeSegment i d) s = (s1, [], Ok tt) -> c_step K (CeContent i buf sc1 sc2) s1 = (s2, o2, Ok tt) ->
  state_of_buffer buf = Ok names ->
  forall p x v, In (p ++ [x]) names -> to_number x = Ok v -> ~ In (CUnsub p) (sc1 ++ sc2) ->
    exists v', seq_of p s2 = Some v' /\ v <= v'.
Proof.
  intros K evs s o i n d buf names sc1 sc2 s1 s2 o2 R Hi Hd Hf E1 E2 B p x v Hin Hx N.
  pose proof (creaches_step _ _ _ _ _ _ _ _ R E1 I) as R1. destruct (creaches_inv _ _ _ _ R1) as (b0 & _ & D & _).
  assert (cfetch i (c_live s1) = Some (KSync, n) /\ c_type s1 = Blob) as [L1 T1].
  { cbn [c_step] in E1. rewrite mbind_get, Hi in E1. destruct (d_final d); [|congruence]. rewrite mbind_mod, mbind_get in E1.
    cbn [c_type cset_type] in E1. rewrite Hd in E1. injection E1 as <-. auto. }
  assert (fine (res (c_step K (CeContent i buf sc1 sc2) s1))) as F by (rewrite E2; exact I).
  cbn [c_step] in E2, F. rewrite mbind_get, L1 in E2. unfold finish in E2. rewrite mbind_mod, T1 in E2. cbn [is_nack] in E2.
  set (s3 := cset_live _ s1) in E2. assert (dinv b0 s3) as D3 by (eapply dinv_same; [|exact D]; repeat split).
  unfold on_csync_data in E2. rewrite mbind_mod, mbind_lift, B in E2. set (s4 := cset_iblt _ s3) in E2.
  assert (dinv b0 s4) as D4 by (eapply dinv_same; [|exact D3]; repeat split).
  destruct (take_sync_inv names s4) as (A1 & (m & A2 & A2') & A3 & _). pose proof (take_sync_all names s4) as A4.
  destruct (take_sync names s4) as [[s5 o5] r5] eqn:T. cbn [outs st res fst snd] in *. subst o5. rewrite (mbind_run _ _ _ _ _ _ T) in E2.
  destruct r5 as [l|y|y|]; try discriminate. specialize (A3 l eq_refl). destruct (A4 l p x v eq_refl Hin Hx) as [K1 K2].
  assert (dinv b0 s5) as D5 by (subst s5; eapply dinv_chain; [exact D4|apply A2', D4|exact A3]).
  match type of E2 with match ?x with _ => _ end = _ => destruct x as [[s6 o6] r6] eqn:Ex end. injection E2 as -> <- ->.
  assert (did sc2 s5 o6 s2 \/ exists o7, did sc2 s5 o7 s2) as Dd.
  { destruct l as [|y l].
    - rewrite mbind_ret in Ex. left. pose proof (send_sync_did K sc2 s5) as X. rewrite Ex in X. apply X. exact I.
    - rewrite mbind_assoc, mbind_emit in Ex. pose proof (calls_did K sc2 s5) as C. destruct (calls K sc2 s5) as [[s7 o7] r7] eqn:Ec.
      rewrite (mbind_run _ _ _ _ _ _ Ec) in Ex. cbn [outs st res fst snd] in C. destruct r7 as [z|z|z|]; try discriminate.
      destruct (C I) as [_ C']. pose proof (send_sync_did K sc2 s7) as X. destruct (send_sync K s7) as [[s8 o8] r8]. cbn [st outs res fst snd] in Ex. injection Ex as E8 _ Er8. subst s8 r8.
      right. exists (o7 ++ o8). eapply did_then; [exact C'|]. apply X. exact I. }
  assert (exists o7, did sc2 s5 o7 s2) as [o7 Dx] by (destruct Dd as [X|X]; eauto).
  assert (~ In (CUnsub p) sc2) as N2 by (intros X; apply N, in_or_app; auto).
  destruct (tells_did b0 sc2 s5 o7 s2 p Dx D5 N2) as [_ _ W1 W2]. specialize (W1 K1). unfold seq_of. unfold known in *.
  destruct (nm_find p (c_prefixes s2)) as [v'|]; [|congruence]. exists v'. split; [reflexivity|]. simpl in W2. lia.
Qed.
Print Assumptions C50_data_again.
Example C50_example : creaches Kc evs_c1 s_c1 o_c1 /\ cfetch 1 (c_live s_c1) <> None /\
  (exists s1, c_step Kc (CeSegment 1 (seg sync_name Blob)) s_c1 = (s1, [], Ok tt)) /\
  outs (c_step Kc (CeSegment 1 (seg sync_name AppNack)) s_c1) = [CoInterest KHello (hello_prefix Kc)].
Proof. split; [exact reach_c1|]. split; [discriminate|]. split; [eexists; vm_compute; reflexivity|vm_compute; reflexivity]. Qed.

(** * C51 *)
Theorem C51_one_of_each_kind : forall K evs s o i j k n m, creaches K evs s o ->
  In (i, (k, n)) (c_live s) -> In (j, (k, m)) (c_live s) -> i = j /\ n = m.
Proof.
  intros K evs s o i j k n m R Hi Hj. destruct (creaches_inv _ _ _ _ R) as (b0 & _ & _ & L).
  assert (i = j) as ->.
  { destruct k; [pose proof (li_hello _ L _ _ Hi); pose proof (li_hello _ L _ _ Hj)|pose proof (li_sync _ L _ _ Hi); pose proof (li_sync _ L _ _ Hj)]; congruence. }
  split; [reflexivity|]. pose proof (li_once _ L) as No. clear - No Hi Hj. induction (c_live s) as [|[a x] l IH]; [contradiction|].
  simpl in No. inversion No as [|y z N1 N2]; subst. destruct Hi as [Hi|Hi], Hj as [Hj|Hj].
  - congruence.
  - injection Hi as -> ->. destruct N1. apply in_map_iff. exists (j, (k, m)). auto.
  - injection Hj as -> ->. destruct N1. apply in_map_iff. exists (j, (k, n)). auto.
  - auto.
Qed.
Print Assumptions C51_one_of_each_kind.
(** the fetch of an interest is gone when another one of its kind is sent, and it stays gone: no
    event of it does anything any more *)
Theorem C51_superseded_are_ignored : forall K evs s o e s1 o1 r k n i m evs2 s2 o2, creaches K evs s o ->
  c_step K e s = (s1, o1, r) -> r = Ok tt \/ (exists x, r = Throw x) -> In (CoInterest k n) o1 -> In (i, (k, m)) (c_live s) ->
  c_run K s1 evs2 = Some (s2, o2) ->
  (forall d, c_step K (CeSegment i d) s2 = (s2, [], Ok tt)) /\
  (forall buf sc1 sc2, c_step K (CeContent i buf sc1 sc2) s2 = (s2, [], Ok tt)) /\
  (forall b, c_step K (CeError i b) s2 = (s2, [], Ok tt)).
Proof.
  intros K evs s o e s1 o1 r k n i m evs2 s2 o2 R E Hr Hn Hi R2. destruct (creaches_inv _ _ _ _ R) as (b0 & _ & _ & L).
  assert (fine r) as Fr by (destruct Hr as [->|[x ->]]; exact I).
  pose proof (live_lt _ _ _ _ L Hi) as Hlt. pose proof (ck_dead _ _ _ (ck_step K i k e) s L) as D. rewrite E in D. cbn [st outs res fst snd] in D.
  specialize (D Fr Hlt (ex_intro _ n Hn)). pose proof (gone_step K e s) as G. rewrite E in G. cbn [st fst] in G.
  pose proof (gone_trans _ _ _ G (gone_run _ _ _ _ _ R2)) as G2. pose proof (gone_run _ _ _ _ _ R2) as G1.
  apply gone_fetch. apply cfetch_None. intros [k' m'] H.
  assert (k' = k) as ->.
  { destruct G2 as [_ G2]. destruct (G2 _ _ H) as [X|X]; [|lia]. pose proof (li_once _ L) as No. clear - No X Hi.
    induction (c_live s) as [|[a x] l IH]; [contradiction|]. simpl in No. inversion No as [|y z N1 N2]; subst. destruct Hi as [Hi|Hi], X as [X|X].
    - congruence.
    - injection Hi as -> ->. destruct N1. apply in_map_iff. exists (i, (k', m')). auto.
    - injection X as -> ->. destruct N1. apply in_map_iff. exists (i, (k, m)). auto.
    - auto. }
  eapply (dead_gone i k s1 s2 G1); eauto. destruct G; lia.
Qed.
Print Assumptions C51_superseded_are_ignored.
(** the same for fetches that have completed or failed *)
Theorem C51_finished_are_ignored : forall K evs s o e i x s1 o1 r evs2 s2 o2, creaches K evs s o ->
  In (i, x) (c_live s) -> (exists buf sc1 sc2, e = CeContent i buf sc1 sc2) \/ (exists b, e = CeError i b) ->
  c_step K e s = (s1, o1, r) -> c_run K s1 evs2 = Some (s2, o2) ->
  (forall d, c_step K (CeSegment i d) s2 = (s2, [], Ok tt)) /\
  (forall buf sc1 sc2, c_step K (CeContent i buf sc1 sc2) s2 = (s2, [], Ok tt)) /\
  (forall b, c_step K (CeError i b) s2 = (s2, [], Ok tt)).
Proof.
  intros K evs s o e i x s1 o1 r evs2 s2 o2 R Hi He E R2. destruct (creaches_inv _ _ _ _ R) as (b0 & _ & _ & L). destruct x as [k n].
  pose proof (live_lt _ _ _ _ L Hi) as Hlt. apply gone_fetch. apply cfetch_None. intros x Hx.
  set (s0 := cset_live (cwithout i (c_live s)) s).
  assert (gone s0 s1) as G.
  { destruct (cfetch i (c_live s)) as [[k1 n1]|] eqn:C; [|pose proof (proj1 (cfetch_None _ _) C (k, n)); contradiction].
    destruct He as [(buf & sc1 & sc2 & ->)|[b ->]]; cbn [c_step] in E; rewrite mbind_get, C in E; unfold finish in E; destruct k1; rewrite mbind_mod in E; fold s0 in E.
    - pose proof (gone_hello_data K buf sc1 sc2 s0) as G. rewrite E in G. exact G.
    - destruct (is_nack _).
      + injection E as <- _ _. apply gone_same; reflexivity.
      + pose proof (gone_sync_data K buf sc2 s0) as G. rewrite E in G. exact G.
    - injection E as <- _ _. apply gone_same; reflexivity.
    - destruct b.
      + pose proof (gone_send_sync K s0) as G. rewrite E in G. exact G.
      + injection E as <- _ _. apply gone_same; reflexivity. }
  pose proof (gone_trans _ _ _ G (gone_run _ _ _ _ _ R2)) as [_ G2]. destruct (G2 _ _ Hx) as [X|X].
  - unfold s0 in X. cbn [c_live cset_live] in X. apply without_In in X as [_ X]. apply X. reflexivity.
  - unfold s0 in X. cbn [c_started cset_live] in X. lia.
Qed.
Print Assumptions C51_finished_are_ignored.
(** stop(): nothing more is sent or reported until the application calls the consumer again *)
Theorem C51_stop_silences_partial : forall K evs s o s1 o1 r evs2 s2 o2, creaches K evs s o ->
  c_step K (CeCall CStop) s = (s1, o1, r) -> Forall external evs2 -> c_run K s1 evs2 = Some (s2, o2) ->
  o1 = [] /\ o2 = [] /\ c_live s2 = [] /\ c_timers s2 = [].
Proof.
  intros K evs s o s1 o1 r evs2 s2 o2 R E F R2. destruct (creaches_inv _ _ _ _ R) as (b0 & _ & _ & L).
  pose proof (stop_quiet s L) as Q. cbn [c_step call] in E. assert (outs (stop_all s) = []) as Eo by reflexivity.
  rewrite E in Q, Eo. cbn [st outs fst snd] in Q, Eo. destruct (quiet_run K evs2 s1 s2 o2 Q F R2) as [-> [A B]]. auto.
Qed.
Print Assumptions C51_stop_silences_partial.
(** not when stop() is called from the update callback of a sync reply: another interest is sent *)
Theorem C51_stop_in_callback_refuted : exists K evs s o i buf s' l n,
  creaches K evs s o /\ c_step K (CeContent i buf [] [CStop]) s = (s', [CoUpdate l; CoInterest KSync n], Ok tt) /\ c_live s' <> [].
Proof.
  exists Kc, evs_c2, s_c2, o_c2, 1%nat, (encode_names [append_number pb 8]). eexists _, _, _. split; [exact reach_c2|]. split.
  - vm_compute. reflexivity.
  - discriminate.
Qed.
Print Assumptions C51_stop_in_callback_refuted.
Example C51_example : creaches Kc evs_c2 s_c2 o_c2 /\ In 1%nat (map fst (c_live s_c2)) /\
  (exists s1 n, c_step Kc (CeCall CSendSync) s_c2 = (s1, [CoInterest KSync n], Ok tt)) /\
  exists s1 o1 s2 o2, c_step Kc (CeCall CStop) s_c2 = (s1, o1, Ok tt) /\ Forall external [CeTick 1000; CeContent 1 two_content [] []; CeTimer 0] /\
    c_run Kc s1 [CeTick 1000; CeContent 1 two_content [] []; CeTimer 0] = Some (s2, o2).
Proof.
  split; [exact reach_c2|]. split; [vm_compute; auto|]. split; [eexists _, _; vm_compute; reflexivity|].
  eexists _, _, _, _. split; [vm_compute; reflexivity|]. split; [repeat constructor; discriminate|]. vm_compute. reflexivity.
Qed.
