(** Property theorems about full-sync nodes: what they send and report (C42-C46, C52-C54). *)
From Coq Require Import List NArith ZArith Bool Arith Lia Sorted.
From Coq.Strings Require Import Byte.
From Verif Require Import Base Mon MonFacts Iblt BaseFacts IbltFacts SpecIblt HonestFacts IbltProps
  Tlv State NMap TlvFacts NMapFacts Codec CodecFacts Properties_Iblt StateFacts Bloom SpecBloom BloomFacts Properties_Bloom Store StoreFacts
  Producer SpecProducer ProducerFacts Properties_Producer Partial SpecPartial PartialFacts PartialSteps Properties_Partial
  Full FullTrace SpecFull FullFacts FullSafe FullSteps FullData FullRuns FullReplies.
Import ListNotations.
Local Open Scope N_scope.

(** ** A configuration for the examples *)
Definition Kf : fcfg := mkFcfg syncp 10 SNone SNone 1000 1000 codec_none env_example 100.
Lemma Kf_ok : schemes_ok Kf /\ uri_ok Kf.
Proof. split; [split; left; reflexivity|]. intros n. reflexivity. Qed.
Definition ask_with (K : fcfg) (t : table) (r : N) : name :=
  fc_sync K ++ [gen (table_bytes t); number_comp TYPE_GENERIC r].
Lemma ask_request K t r : fc_scheme K = SNone -> fc_codec K = codec_none ->
  length t = n_entries (fc_n K) -> Forall wf_cell t -> r < two64 ->
  full_request K (ask_with K t r) t r.
Proof.
  intros Es Ec L Wf Hr. exists (gen (table_bytes t)), (number_comp TYPE_GENERIC r).
  split; [reflexivity|]. split; [apply to_number_number; exact Hr|]. rewrite Es, Ec.
  destruct (initialize_append codec_none SNone [] t [gen (table_bytes t)] (iblt_new (fc_n K)))
    as (c & E & Hi); auto using lossless_none.
  - rewrite iblt_new_length. symmetry. exact L.
  - injection E as <-. exact Hi.
Qed.
Definition blank_ask : name := Eval vm_compute in ask_with Kf (iblt_new 10) 0.
Lemma blank_request : full_request Kf blank_ask (iblt_new 10) 0.
Proof.
  apply (ask_request Kf (iblt_new 10) 0); [reflexivity|reflexivity|apply iblt_new_length|apply iblt_new_wf|reflexivity].
Qed.
(** the state and the observations after some events, from a start at time 0 *)
Definition full_after (K : fcfg) (evs : list fev) : fp * list fout :=
  match fp_start K 0 evs with Some x => x | None => (fp_blank K 0, []) end.
Definition started (K : fcfg) (evs : list fev) : bool :=
  match fp_start K 0 evs with Some _ => true | None => false end.
Lemma reaches_example K evs : Forall fev_wf evs -> started K evs = true ->
  reaches K 0 evs (fst (full_after K evs)) (snd (full_after K evs)).
Proof.
  intros W. unfold started, reaches, full_after. destruct (fp_start K 0 evs) as [[s o]|]; [|discriminate].
  auto.
Qed.
Lemma wf_nil (e : fev) : ev_ops e = [] -> fev_wf e.
Proof. unfold fev_wf. intros ->. constructor. Qed.
Definition keeps_all (ops : list cop) : bool := forallb (fun o => match o with CRemove _ => false | _ => true end) ops.
Lemma keeps_all_ok ops : keeps_all ops = true -> no_removal ops.
Proof.
  unfold keeps_all. rewrite forallb_forall. intros H p Hp. specialize (H _ Hp). discriminate.
Qed.

(** * C42 *)
Theorem C42_survives_numbered_interests_partial : forall K sys evs s o n l,
  schemes_ok K -> uri_ok K -> reaches K sys evs s o ->
  (forall c c1, n = fc_sync K ++ [c; c1] -> exists v, to_number c1 = Ok v) ->
  tame (res (fp_step K (FeInterest n l) s)).
Proof.
  intros K sys evs s o n l Sk Uk R H. apply (step_tame K Sk Uk s (FeInterest n l)).
  - eapply reaches_ok; eauto.
  - exact H.
Qed.
Print Assumptions C42_survives_numbered_interests_partial.

(** any two components after the sync prefix, the second not a number *)
Theorem C42_survives_any_interest_refuted : exists K sys evs s o n l x,
  schemes_ok K /\ uri_ok K /\ reaches K sys evs s o /\ res (fp_step K (FeInterest n l) s) = Throw x.
Proof.
  eexists Kf, 0%Z, [], _, _, (syncp ++ [gen [x61]; gen [x61; x62; x63]]), 1000, _.
  split; [apply Kf_ok|]. split; [apply Kf_ok|]. split.
  - apply reaches_example; [constructor|vm_compute; reflexivity].
  - vm_compute. reflexivity.
Qed.
Print Assumptions C42_survives_any_interest_refuted.

(** the hypotheses of the partial theorem: a request of a fresh node *)
Example C42_example : schemes_ok Kf /\ uri_ok Kf /\ (exists s o, reaches Kf 0 [] s o) /\
  forall c c1, blank_ask = fc_sync Kf ++ [c; c1] -> exists v, to_number c1 = Ok v.
Proof.
  split; [apply Kf_ok|]. split; [apply Kf_ok|]. split.
  - eexists _, _. apply reaches_example; [constructor|vm_compute; reflexivity].
  - intros c c1 [= <- <-]. exists 0. reflexivity.
Qed.

(** * C43, for full-sync nodes *)
Theorem C43_full_survives_good_content_partial : forall K sys evs s o i buf script,
  schemes_ok K -> uri_ok K -> reaches K sys evs s o -> good_content K buf ->
  tame (res (fp_step K (FeContent i buf script) s)).
Proof.
  intros K sys evs s o i buf script Sk Uk R H. apply (step_tame K Sk Uk s (FeContent i buf script)).
  - eapply reaches_ok; eauto.
  - exact H.
Qed.
Print Assumptions C43_full_survives_good_content_partial.

(** contents of one name: "/p/abc", which does not end in a number, and "/" *)
Definition wild_content : bytes := encode_names [[gen [x70]; gen [x61; x62; x63]]].
Definition empty_content : bytes := encode_names [[]].
Theorem C43_full_survives_any_content_refuted : exists K sys evs s o i buf buf' x,
  schemes_ok K /\ uri_ok K /\ reaches K sys evs s o /\
  res (fp_step K (FeContent i buf []) s) = Throw x /\
  res (fp_step K (FeContent i buf' []) s) = UB UbOutOfBounds.
Proof.
  eexists Kf, 0%Z, [], _, _, 0%nat, wild_content, empty_content, _.
  split; [apply Kf_ok|]. split; [apply Kf_ok|]. split.
  - apply reaches_example; [constructor|vm_compute; reflexivity].
  - split; vm_compute; reflexivity.
Qed.
Print Assumptions C43_full_survives_any_content_refuted.

Definition two_names : list name := [append_number pa 4; append_number pb 5].
Definition two_content : bytes := Eval vm_compute in encode_names two_names.
Lemma two_decodes : content_names Kf two_content two_names.
Proof. vm_compute. reflexivity. Qed.
Lemma number_good p v : v < two64 -> good_name (append_number p v).
Proof. intros H. exists p, (number_comp TYPE_GENERIC v). split; [reflexivity|]. exists v. apply to_number_number. exact H. Qed.
Lemma two_good : good_content Kf two_content.
Proof.
  intros l H. unfold content_names in H. rewrite two_decodes in H. injection H as <-.
  repeat constructor; apply number_good; reflexivity.
Qed.
Example C43_example : schemes_ok Kf /\ uri_ok Kf /\ (exists s o, reaches Kf 0 [] s o) /\
  good_content Kf two_content.
Proof.
  split; [apply Kf_ok|]. split; [apply Kf_ok|]. split; [|apply two_good].
  eexists _, _. apply reaches_example; [constructor|vm_compute; reflexivity].
Qed.

(** * C44 *)
(** whenever the handler does not throw *)
Theorem C44_changes_are_reported_partial : forall K sys evs s o i buf script s' o',
  reaches K sys evs s o -> fp_step K (FeContent i buf script) s = (s', o', Ok tt) ->
  (o' = [] /\ f_core s' = f_core s) \/
  exists pre l post k,
    o' = pre ++ FoUpdate l :: post /\ only_ops pre /\ no_report post /\
    crun (f_core s) (ops_of pre) = Ok k /\
    (forall p v, seq0 (get_seq p (f_core s)) < v <= seq0 (get_seq p k) ->
       exists m, In m l /\ mi_prefix m = p /\ mi_low m <= v <= mi_high m) /\
    (forall op, In op (ops_of post) -> In op (map api_op script) \/ exists p, op = CAdd p).
Proof.
  intros K sys evs s o i buf script s' o' R E.
  destruct (step_content_inv K i buf script s s' o' _ (reaches_pfx _ _ _ _ _ R) E)
    as [H|[[_ H]|(pre & l & post & k & E1 & E2 & E3 & E4 & E5 & E6 & E7 & E8)]]; auto.
  - contradiction.
  - right. exists pre, l, post, k. split; auto. split; auto. split; auto. split; auto. split.
    + intros p v H. destruct (report_chain_cover _ _ _ _ _ E6 H) as ([lo hi] & A & B).
      apply in_map_iff in A as (m & [= <- <-] & Hm). apply filter_In in Hm as [Hm Hp].
      exists m. apply name_eqb_eq in Hp. auto.
    + rewrite Forall_forall in E8. exact E8.
Qed.
Print Assumptions C44_changes_are_reported_partial.

(** "/a/4" followed by a name that does not end in a number: the node now has 4 for "/a", and the
    application was told nothing *)
Definition torn_content : bytes := encode_names [append_number pa 4; [gen [x70]; gen [x61; x62; x63]]].
Theorem C44_every_change_is_reported_refuted : exists K sys evs s o i buf script p s' o' x,
  schemes_ok K /\ uri_ok K /\ reaches K sys evs s o /\
  fp_step K (FeContent i buf script) s = (s', o', Throw x) /\
  get_seq p (f_core s) = None /\ get_seq p (f_core s') = Some 4 /\ no_report o'.
Proof.
  eexists Kf, 0%Z, [], _, _, 0%nat, torn_content, [], pa, _, _, _.
  split; [apply Kf_ok|]. split; [apply Kf_ok|]. split.
  - apply reaches_example; [constructor|vm_compute; reflexivity].
  - split; [vm_compute; reflexivity|]. split; [vm_compute; reflexivity|]. split; [vm_compute; reflexivity|].
    repeat constructor; discriminate.
Qed.
Print Assumptions C44_every_change_is_reported_refuted.

(** a report of two updates *)
Definition s_f0 : fp := Eval vm_compute in fst (full_after Kf []).
Lemma reach_f0 : reaches Kf 0 [] s_f0 (snd (full_after Kf [])).
Proof.
  assert (s_f0 = fst (full_after Kf [])) as -> by (vm_compute; reflexivity).
  apply reaches_example; [constructor|vm_compute; reflexivity].
Qed.
Example C44_example : exists s o s' o', reaches Kf 0 [] s o /\
  fp_step Kf (FeContent 0 two_content []) s = (s', o', Ok tt) /\
  In (FoUpdate [mkMissing pa 1 4 0; mkMissing pb 1 5 0]) o' /\
  get_seq pb (f_core s') = Some 5.
Proof.
  eexists s_f0, _, _, _. split; [apply reach_f0|]. split; [vm_compute; reflexivity|].
  split; [|vm_compute; reflexivity]. do 4 right. left. reflexivity.
Qed.

(** * C45 *)
(** each callback: the ranges follow each other without gaps, from the numbers known before the
    content arrived to those known when the callback runs *)
Theorem C45_ranges_follow_each_other : forall K sys evs s o e l o1 o2,
  reaches K sys evs s o -> outs (fp_step K e s) = o1 ++ FoUpdate l :: o2 ->
  exists k, crun (f_core s) (ops_of o1) = Ok k /\
    report_chain (fun p => get_seq p (f_core s)) l (fun p => get_seq p k).
Proof.
  intros K sys evs s o e l o1 o2 R E.
  assert (In (FoUpdate l) (outs (fp_step K e s))) as Hin by (rewrite E; apply in_elt).
  assert (forall x, no_report x -> ~ In (FoUpdate l) x) as Nr.
  { intros x Nx H. unfold no_report in Nx. rewrite Forall_forall in Nx. exact (Nx _ H l eq_refl). }
  destruct e as [a|n t|i buf script|i face|i timeout|dt|t| | |key|i];
    try (exfalso; eapply Nr; [|exact Hin]; apply step_other_inv; intros; discriminate).
  destruct (fp_step K (FeContent i buf script) s) as [[s' o'] r] eqn:Es. cbn [outs fst snd] in *. subst o'.
  destruct (step_content_inv K i buf script s s' _ _ (reaches_pfx _ _ _ _ _ R) Es)
    as [[H _]|[[H _]|(pre & l' & post & k & E1 & E2 & E3 & E4 & E5 & E6 & E7 & E8)]].
  - destruct o1; discriminate.
  - exfalso. eapply Nr; [apply only_ops_nr; exact H|exact Hin].
  - assert (o1 = pre /\ l = l') as [-> ->]; [|exists k; auto].
    clear - E1 E2 E3. revert pre E1 E2. induction o1 as [|x o1 IH]; intros [|y pre] E E2; simpl in E.
    + injection E as -> _. auto.
    + inversion E2 as [|z r [c Hc] _]. subst. discriminate.
    + injection E as -> E. exfalso. unfold no_report in E3. rewrite <- E, Forall_forall in E3.
      apply (E3 (FoUpdate l) (in_elt _ _ _) l eq_refl).
    + injection E as -> E. inversion E2. subst. destruct (IH pre E); auto. subst. auto.
Qed.
Print Assumptions C45_ranges_follow_each_other.

(** over a whole history, while no prefix is removed: no sequence number is announced twice *)
Theorem C45_announced_at_most_once : forall K sys evs s o p,
  reaches K sys evs s o -> no_removal (ops_of o) ->
  StronglySorted (fun a b => snd a < fst b) (reported p o).
Proof. intros. eapply reported_sorted; eauto. Qed.
Print Assumptions C45_announced_at_most_once.

(** ... and none is skipped: what the node has, the application was told or published itself.
    Missing: histories with contents that make the handler throw (see C44). *)
Theorem C45_none_skipped_partial : forall K sys evs s o p n,
  schemes_ok K -> uri_ok K -> reaches K sys evs s o -> no_removal (ops_of o) ->
  (forall i buf script, In (FeContent i buf script) evs -> good_content K buf) ->
  1 <= n <= seq0 (get_seq p (f_core s)) ->
  (exists r, In r (reported p o) /\ fst r <= n <= snd r) \/
  (exists a q b, ops_of o = a ++ CPublish p q :: b /\
     seq0 (seq_after p a) < n <= seq0 (seq_after p (a ++ [CPublish p q]))).
Proof.
  intros K sys evs s o p n Sk Uk R Nr G H. eapply reported_complete; eauto.
  rewrite <- (reaches_seq _ _ _ _ _ p R). exact H.
Qed.
Print Assumptions C45_none_skipped_partial.
(** a content that makes the handler throw after its first name: four numbers are never announced *)
Theorem C45_none_skipped_refuted : exists K sys evs s o p,
  schemes_ok K /\ uri_ok K /\ reaches K sys evs s o /\ no_removal (ops_of o) /\
  get_seq p (f_core s) = Some 4 /\ reported p o = [] /\ (forall q, ~ In (CPublish p q) (ops_of o)).
Proof.
  assert (Forall fev_wf [FeContent 0 torn_content []]) as W by (repeat constructor; apply wf_nil; reflexivity).
  eexists Kf, 0%Z, [FeContent 0 torn_content []], _, _, pa.
  split; [apply Kf_ok|]. split; [apply Kf_ok|]. split; [apply (reaches_example Kf _ W); vm_compute; reflexivity|].
  split; [apply keeps_all_ok; vm_compute; reflexivity|]. split; [vm_compute; reflexivity|]. split; [vm_compute; reflexivity|].
  intros q. assert (existsb (fun c => match c with CPublish _ _ => true | _ => false end) (ops_of (snd (full_after Kf [FeContent 0 torn_content []]))) = false) as N by (vm_compute; reflexivity).
  intros H. assert (existsb (fun c => match c with CPublish _ _ => true | _ => false end) (ops_of (snd (full_after Kf [FeContent 0 torn_content []]))) = true) as Y
    by (apply existsb_exists; eauto). congruence.
Qed.
Print Assumptions C45_none_skipped_refuted.

(** a history with two contents for the same prefix and an own publication *)
Definition a_content (v : N) : bytes := encode_names [append_number pa v].
Definition evs_45 : list fev :=
  [FeContent 0 two_content []; FeTick 200; FeSend; FeContent 1 (a_content 7) [AAdd pb; APublish pb None]].
Example C45_example : exists s o, reaches Kf 0 evs_45 s o /\ no_removal (ops_of o) /\
  reported pa o = [(1, 4); (5, 7)] /\ reported pb o = [(1, 5)] /\ get_seq pb (f_core s) = Some 6.
Proof.
  assert (Forall fev_wf evs_45) as W by (repeat constructor; apply wf_nil; reflexivity).
  eexists _, _. split; [apply (reaches_example Kf evs_45 W); vm_compute; reflexivity|].
  split; [|split; [|split]; vm_compute; reflexivity].
  apply keeps_all_ok. vm_compute. reflexivity.
Qed.
Lemma good_45 : forall i buf script, In (FeContent i buf script) evs_45 -> good_content Kf buf.
Proof.
  intros i buf script [E|[E|[E|[E|[]]]]]; try discriminate; injection E as <- <- <-; [apply two_good|].
  intros l H. assert (content_names Kf (a_content 7) [append_number pa 7]) as X by (vm_compute; reflexivity).
  unfold content_names in *. rewrite X in H. injection H as <-. repeat constructor. apply number_good. reflexivity.
Qed.

(** * C46 *)
Lemma chain_nonempty (known : name -> option N) g m l : forall f, (forall p, f p = None -> known p = None) ->
  report_chain f l g -> In m l ->
  mi_low m <= mi_high m \/ (mi_low m = 1 /\ mi_high m = 0 /\ known (mi_prefix m) = None).
Proof.
  induction l as [|m0 l IH]; intros f Hf; [contradiction|]. cbn [report_chain]. intros (A & B & C) [->|Hm].
  - destruct (f (mi_prefix m)) as [v|] eqn:F; simpl in *; [left; lia|].
    destruct (N.eq_dec (mi_high m) 0) as [Z|Z]; [right; auto|left; lia].
  - eapply IH; [|exact C|exact Hm]. intros p. simpl. destruct (name_eqb p (mi_prefix m0)); [discriminate|auto].
Qed.
(** Missing: a range of a new prefix whose advertised number is 0 *)
Theorem C46_ranges_nonempty_partial : forall K sys evs s o e l m,
  reaches K sys evs s o -> In (FoUpdate l) (outs (fp_step K e s)) -> In m l ->
  mi_low m <= mi_high m \/ (mi_low m = 1 /\ mi_high m = 0 /\ get_seq (mi_prefix m) (f_core s) = None).
Proof.
  intros K sys evs s o e l m R Hl Hm. apply in_split in Hl as (o1 & o2 & E).
  destruct (C45_ranges_follow_each_other _ _ _ _ _ _ _ _ _ R E) as (k & _ & C).
  apply (chain_nonempty (fun p => get_seq p (f_core s)) _ m l _ (fun _ H => H) C Hm).
Qed.
Print Assumptions C46_ranges_nonempty_partial.

(** ... so all ranges are non-empty if no received name ends in 0 *)
Theorem C46_nonempty_without_zeros_partial : forall K sys evs s o i buf script l m,
  reaches K sys evs s o -> In (FoUpdate l) (outs (fp_step K (FeContent i buf script) s)) -> In m l ->
  (forall names p x, content_names K buf names -> In (p ++ [x]) names -> to_number x <> Ok 0) ->
  mi_low m <= mi_high m.
Proof.
  intros K sys evs s o i buf script l m R Hl Hm Nz.
  destruct (C46_ranges_nonempty_partial _ _ _ _ _ _ _ _ R Hl Hm) as [H|(_ & H & _)]; auto. exfalso.
  unfold outs in Hl. destruct (fp_step K (FeContent i buf script) s) as [[s' o'] r] eqn:E. cbn [fst snd] in Hl.
  destruct (report_from K i buf script s s' o' r l (reaches_pfx _ _ _ _ _ R) E Hl) as (names & C & F).
  destruct (F m Hm) as (x & A & B). rewrite H in B. exact (Nz names _ x C A B).
Qed.
Print Assumptions C46_nonempty_without_zeros_partial.

Example C46_example : exists o l, reaches Kf 0 [] s_f0 o /\
  outs (fp_step Kf (FeContent 0 two_content []) s_f0) <> [] /\
  In (FoUpdate l) (outs (fp_step Kf (FeContent 0 two_content []) s_f0)) /\ l = [mkMissing pa 1 4 0; mkMissing pb 1 5 0].
Proof.
  eexists _, _. split; [apply reach_f0|]. split; [vm_compute; discriminate|].
  split; [|reflexivity]. vm_compute. repeat (first [left; reflexivity|right]).
Qed.

(** between two honest nodes: one adds a prefix and publishes sequence number 0 for it while the
    interest of the other is pending; the reply makes the other report the range from 1 to 0 *)
Definition evs_46 : list fev := [FeApi (AAdd pa); FeInterest blank_ask 1000; FeApi (APublish pa (Some 0))].
Definition sent_46 : bytes := Eval vm_compute in
  match data_of (snd (full_after Kf evs_46)) with d :: _ => d_content d | [] => [] end.
Theorem C46_ranges_nonempty_refuted : exists K sys evs s o evs' s' o' d m,
  schemes_ok K /\ uri_ok K /\
  reaches K sys evs s o /\ In (FoData d) o /\ d_final d <> None /\
  reaches K sys evs' s' o' /\ In (FoInterest (fc_sync K ++ [gen (table_bytes (iblt_new 10)); number_comp TYPE_GENERIC 0]) 0) o' /\
  In (FeInterest (fc_sync K ++ [gen (table_bytes (iblt_new 10)); number_comp TYPE_GENERIC 0]) 1000) evs /\
  (exists l, In (FoUpdate l) (outs (fp_step K (FeContent 0 (d_content d) []) s')) /\ In m l) /\
  mi_high m < mi_low m.
Proof.
  assert (Forall fev_wf evs_46) as W by (repeat constructor; apply wf_nil; reflexivity).
  exists Kf, 0%Z, evs_46. eexists _, _, [], s_f0, (snd (full_after Kf [])).
  eexists (mkData _ _ sent_46 _ _ _), (mkMissing pa 1 0 0). split; [apply Kf_ok|]. split; [apply Kf_ok|].
  split; [apply (reaches_example Kf evs_46 W); vm_compute; reflexivity|].
  split; [vm_compute; do 3 right; left; reflexivity|]. split; [discriminate|]. split; [apply reach_f0|].
  split; [vm_compute; left; reflexivity|]. split; [right; left; reflexivity|].
  split; [|vm_compute; reflexivity]. cbn [d_content]. eexists. split; [vm_compute; do 2 right; left; reflexivity|left; reflexivity].
Qed.
Print Assumptions C46_ranges_nonempty_refuted.

(** * C52 *)
Lemma live_In_seq sys evs K s o nm : reaches K sys evs s o ->
  (In nm (live (f_core s)) <-> exists p v, get_seq p (f_core s) = Some v /\ v <> 0 /\ nm = append_number p v).
Proof. intros R. apply live_names_In. apply (reaches_pfx _ _ _ _ _ R). Qed.

(** the interest names IBF [t]; the difference to it is [d] *)
Theorem C52_reply_content : forall K sys evs s o n t rcvd l d,
  schemes_ok K -> uri_ok K -> reaches K sys evs s o -> no_collision K o ->
  full_request K n t rcvd -> reply_from_store n (f_pub s) = None ->
  iblt_sub (fc_fuel K) (k_iblt (f_core s)) t = Ok d -> can_decode d = true ->
  exists names s' o',
    NoDup names /\
    (forall nm, In nm names <->
       exists p v, get_seq p (f_core s) = Some v /\ v <> 0 /\ nm = append_number p v /\
         In (name_hash nm) (positive d) /\
         ~ In (name_hash (append_number p ((v + 1) mod two64))) (negative d)) /\
    fp_step K (FeInterest n l) s = (s', o', Ok tt) /\ f_core s' = f_core s /\
    (names = [] -> o' = [] /\ f_pub s' = f_pub s) /\
    (names <> [] -> answered K (f_now s) (f_pub s) (f_pub s') n names (fc_fresh K) (data_of o')).
Proof.
  intros K sys evs s o n t rcvd l d Sk Uk R Hc Hq Hr Hd Cd.
  pose proof (reaches_core_ok _ _ _ _ _ R Hc) as Ck.
  destruct (decodable_reply K (fc_n K) n t rcvd l d s Sk Uk Ck Hq Hr Hd Cd) as (s' & o' & E & C & H).
  exists (offer (f_core s) (negative d) (positive d)), s', o'. split.
  - eapply offer_NoDup; eauto. apply nsorted_NoDup. apply (iblt_sub_sorted _ _ _ _ Hd).
  - split; [intros nm; eapply offer_In; eauto|]. split; auto. split; auto.
    destruct (offer _ _ _) as [|x y].
    + split; auto. intros X. contradiction.
    + destruct H as (ds & A & <- & _). split; [discriminate|auto].
Qed.
Print Assumptions C52_reply_content.

Lemma full_exact K sys evs s o ks t : reaches K sys evs s o -> no_collision K o -> NoDup ks ->
  IbfOf (fc_n K) ks t -> exact_diff K (f_core s) ks ->
  exists d, iblt_sub (fc_fuel K) (k_iblt (f_core s)) t = Ok d /\
    (can_decode d = true ->
       (forall h, In h (positive d) <-> In h (map name_hash (live (f_core s))) /\ ~ In h ks) /\
       (forall h, In h (negative d) <-> In h ks /\ ~ In h (map name_hash (live (f_core s))))) /\
    (can_decode d = true <->
     peelable (n_entries (fc_n K)) (only_in (map name_hash (live (f_core s))) ks ++
                                    only_in ks (map name_hash (live (f_core s))))).
Proof.
  intros R Hc Nk Ht [X F]. destruct (reaches_core _ _ _ _ _ R) as [W C].
  pose proof (C30_ibf_is_current_names _ _ _ W C Hc) as [Hi _].
  assert (NoDup (map name_hash (live (f_core s)))) as Nl by (apply (Hc (ops_of o) [] _); [rewrite app_nil_r; auto|exact C]).
  destruct (iblt_sub_honest (fc_n K) _ ks _ t (fc_fuel K) Nl Nk Hi Ht X F) as (d & E & _ & _ & Dp & De).
  exists d. auto.
Qed.
(** the peer's view: its IBF holds the hashes [ks] and can be told apart from this node's; the reply
    is what it lacks, except where it has the next sequence number and this node has not *)
Theorem C52_reply_to_honest_peer : forall K sys evs s o n t rcvd l ks,
  schemes_ok K -> uri_ok K -> reaches K sys evs s o -> no_collision K o ->
  full_request K n t rcvd -> reply_from_store n (f_pub s) = None ->
  NoDup ks -> IbfOf (fc_n K) ks t -> exact_diff K (f_core s) ks ->
  peelable (n_entries (fc_n K)) (only_in (map name_hash (live (f_core s))) ks ++
                                 only_in ks (map name_hash (live (f_core s)))) ->
  exists names s' o',
    NoDup names /\
    (forall nm, In nm names <->
       exists p v, get_seq p (f_core s) = Some v /\ v <> 0 /\ nm = append_number p v /\
         ~ In (name_hash nm) ks /\
         ~ (In (name_hash (append_number p ((v + 1) mod two64))) ks /\
            ~ In (name_hash (append_number p ((v + 1) mod two64))) (map name_hash (live (f_core s))))) /\
    fp_step K (FeInterest n l) s = (s', o', Ok tt) /\ f_core s' = f_core s /\
    (names = [] -> o' = [] /\ f_pub s' = f_pub s) /\
    (names <> [] -> answered K (f_now s) (f_pub s) (f_pub s') n names (fc_fresh K) (data_of o')).
Proof.
  intros K sys evs s o n t rcvd l ks Sk Uk R Hc Hq Hr Nk Ht X Pe.
  destruct (full_exact _ _ _ _ _ _ _ R Hc Nk Ht X) as (d & Hd & De & Dp).
  apply Dp in Pe. destruct (De Pe) as [Dp' Dn].
  destruct (C52_reply_content _ _ _ _ _ _ _ _ l _ Sk Uk R Hc Hq Hr Hd Pe) as (names & s' & o' & A & B & C).
  exists names, s', o'. split; auto. split; auto. intros nm. rewrite B.
  split; intros (p & v & E1 & E2 & E3 & E4 & E5); exists p, v; (split; [auto|split; [auto|split; [auto|]]]).
  - apply Dp' in E4 as [_ E4]. rewrite Dn in E5. auto.
  - rewrite Dn, Dp'. split; auto. split; auto. apply in_map. apply (live_In_seq _ _ _ _ _ _ R). eauto.
Qed.
Print Assumptions C52_reply_to_honest_peer.

Definition evs_52 : list fev :=
  [FeApi (AAdd pa); FeApi (APublish pa (Some 4)); FeApi (AAdd pb); FeApi (APublish pb (Some 5))].
Lemma wf_52 : Forall fev_wf evs_52.
Proof. repeat constructor. Qed.
Definition s_52 : fp := Eval vm_compute in fst (full_after Kf evs_52).
Definition o_52 : list fout := Eval vm_compute in snd (full_after Kf evs_52).
Lemma reach_52 : reaches Kf 0 evs_52 s_52 o_52.
Proof. split; [apply wf_52|vm_compute; reflexivity]. Qed.
Lemma free_52 : no_collision Kf o_52.
Proof. intros pre post k E H. eapply check_free_ok; [|exact E|exact H]. vm_compute. reflexivity. Qed.
Definition d_52 : iblt_diff :=
  Eval vm_compute in (ok_or (mkDiff false [] []) (iblt_sub 100 (k_iblt (f_core s_52)) (iblt_new 10))).
Lemma d_52_ok : iblt_sub 100 (k_iblt (f_core s_52)) (iblt_new 10) = Ok d_52.
Proof. vm_compute. reflexivity. Qed.
(** a fresh peer asks a node with two names *)
Example C52_example :
  schemes_ok Kf /\ uri_ok Kf /\ reaches Kf 0 evs_52 s_52 o_52 /\ no_collision Kf o_52 /\
  full_request Kf blank_ask (iblt_new 10) 0 /\ reply_from_store blank_ask (f_pub s_52) = None /\
  NoDup (@nil N) /\ IbfOf (fc_n Kf) [] (iblt_new 10) /\ exact_diff Kf (f_core s_52) [] /\
  live (f_core s_52) = [append_number pa 4; append_number pb 5] /\
  iblt_sub (fc_fuel Kf) (k_iblt (f_core s_52)) (iblt_new 10) = Ok d_52 /\ can_decode d_52 = true /\
  length (positive d_52) = 2%nat.
Proof.
  split; [apply Kf_ok|]. split; [apply Kf_ok|]. split; [apply reach_52|]. split; [apply free_52|].
  split; [apply blank_request|]. split; [vm_compute; reflexivity|].
  split; [constructor|]. split; [reflexivity|]. split.
  - split; [|apply Nat.ltb_lt; vm_compute; reflexivity].
    apply no_coincidence_small.
    + apply signed_diff_keys; [|constructor]. apply check_nodup. vm_compute. reflexivity.
    + apply signed_diff_signs.
    + apply Nat.leb_le. vm_compute. reflexivity.
  - split; [vm_compute; reflexivity|]. split; [apply d_52_ok|]. split; vm_compute; reflexivity.
Qed.

(** * C53 *)
Theorem C53_undecodable_difference : forall K sys evs s o n t rcvd l d,
  schemes_ok K -> reaches K sys evs s o ->
  full_request K n t rcvd -> reply_from_store n (f_pub s) = None ->
  iblt_sub (fc_fuel K) (k_iblt (f_core s)) t = Ok d -> can_decode d = false ->
  exists names s' o',
    NoDup names /\
    (forall nm, In nm names <->
       exists p v, get_seq p (f_core s) = Some v /\ v <> 0 /\ nm = append_number p v) /\
    fp_step K (FeInterest n l) s = (s', o', Ok tt) /\ f_core s' = f_core s /\
    (k_count (f_core s) < rcvd \/ (k_count (f_core s) = rcvd /\ positive d = [] /\ negative d <> []) \/
     names = [] -> o' = [] /\ f_pub s' = f_pub s) /\
    (rcvd <= k_count (f_core s) -> ~ (k_count (f_core s) = rcvd /\ positive d = [] /\ negative d <> []) ->
     names <> [] ->
     answered K (f_now s) (f_pub s) (f_pub s') n names 10 (data_of o')).
Proof.
  intros K sys evs s o n t rcvd l d Sk R Hq Hr Hd Cd.
  destruct (undecodable_reply K n t rcvd l d s Sk Hq Hr Hd Cd) as (s' & o' & E & C & H1 & H2).
  exists (live (f_core s)), s', o'. split.
  { apply live_names_NoDup; apply (reaches_pfx _ _ _ _ _ R). }
  split; [intros nm; apply (live_In_seq _ _ _ _ _ _ R)|]. split; auto. split; auto. split.
  - intros X. destruct (H1 X) as (A & B & _). auto.
  - intros X1 X2 X3. destruct (H2 X1 X2 X3) as (ds & A & -> & _). exact A.
Qed.
Print Assumptions C53_undecodable_difference.

(** two names do not fit into a difference of three cells: the whole state is sent to a fresh peer *)
Definition Kf1 : fcfg := mkFcfg syncp 1 SNone SNone 1000 1000 codec_none env_example 100.
Definition blank_ask1 : name := Eval vm_compute in ask_with Kf1 (iblt_new 1) 0.
Definition s_53 : fp := Eval vm_compute in fst (full_after Kf1 evs_52).
Definition o_53 : list fout := Eval vm_compute in snd (full_after Kf1 evs_52).
Lemma reach_53 : reaches Kf1 0 evs_52 s_53 o_53.
Proof. split; [apply wf_52|vm_compute; reflexivity]. Qed.
Lemma blank_request1 : full_request Kf1 blank_ask1 (iblt_new 1) 0.
Proof.
  apply (ask_request Kf1 (iblt_new 1) 0); [reflexivity|reflexivity|apply iblt_new_length|apply iblt_new_wf|reflexivity].
Qed.
Example C53_example :
  schemes_ok Kf1 /\ reaches Kf1 0 evs_52 s_53 o_53 /\
  full_request Kf1 blank_ask1 (iblt_new 1) 0 /\ reply_from_store blank_ask1 (f_pub s_53) = None /\
  (exists d, iblt_sub (fc_fuel Kf1) (k_iblt (f_core s_53)) (iblt_new 1) = Ok d /\ can_decode d = false) /\
  0 <= k_count (f_core s_53) /\ live (f_core s_53) = [append_number pa 4; append_number pb 5].
Proof.
  split; [split; left; reflexivity|]. split; [apply reach_53|]. split; [apply blank_request1|].
  split; [vm_compute; reflexivity|]. split; [|split; [vm_compute; discriminate|vm_compute; reflexivity]].
  eexists. split; vm_compute; reflexivity.
Qed.

(** * C54 *)
(** every difference with a pending interest is computed (for honest peers: C01, C08) *)
Theorem C54_publish_answers_pending : forall K sys evs s o p q cur k',
  schemes_ok K -> reaches K sys evs s o -> no_collision K o ->
  get_seq p (f_core s) = Some cur -> fev_wf (FeApi (APublish p q)) ->
  cstep (f_core s) (CPublish p q) = Ok k' -> NoDup (map name_hash (live k')) ->
  (forall key e, nm_find key (f_pending s) = Some e ->
     exists d, iblt_sub (fc_fuel K) (k_iblt k') (fe_iblt e) = Ok d) ->
  exists s' o',
    fp_step K (FeApi (APublish p q)) s = (s', o', Ok tt) /\
    f_core s' = k' /\ f_pending s' = [] /\
    answers K (f_now s)
      (fun key names => exists e d, nm_find key (f_pending s) = Some e /\
         iblt_sub (fc_fuel K) (k_iblt k') (fe_iblt e) = Ok d /\ NoDup names /\
         forall nm, In nm names <->
           nm = append_number p (match q with Some x => x | None => (cur + 1) mod two64 end) \/
           (In nm (live k') /\ In (name_hash nm) (positive d)))
      (f_pub s) (nm_keys (f_pending s)) (f_pub s') (data_of o').
Proof.
  intros K sys evs s o p q cur k' Sk R Hc Hp Wq Hk Nd Hd.
  pose proof (reaches_ok _ _ _ _ _ R) as Ok_.
  destruct (publish_step K s p q cur k' Sk Ok_ Hp Hk Hd) as (s' & o' & E & C & P & _ & A).
  exists s', (FoOp (CPublish p q) :: o'). split; auto. split; auto. split; auto.
  assert (core_ok (fc_n K) k') as Ck.
  { eapply cstep_ok; [eapply reaches_core_ok; eauto|inversion Wq as [|? ? W0 ?]; exact W0|exact Hk|].
    apply hash_inj_live; auto.
    eapply cstep_pfx; [apply (reaches_pfx _ _ _ _ _ R)|inversion Wq as [|? ? W0 ?]; exact W0|exact Hk]. }
  eapply answers_ext; [|exact A]. intros key names _ (e & d & X1 & X2 & ->). exists e, d. split; auto. split; auto. split.
  { apply satisfy_NoDup; [apply nsorted_NoDup; apply (iblt_sub_sorted _ _ _ _ X2)|].
    intros h nm Hh. apply (rep_lookup _ _ _ _ _ _ (ok_rep _ _ Ck)) in Hh as [_ Hh]. exact Hh. }
  intros nm. rewrite satisfy_In, lookup_In.
  assert (append_number p (publish_seq cur q) = append_number p (match q with Some x => x | None => (cur + 1) mod two64 end)) as -> by (destruct q; reflexivity).
  split; intros [->|H]; auto; right.
  - destruct H as (h & H1 & H2). apply (rep_lookup _ _ _ _ _ _ (ok_rep _ _ Ck)) in H2 as [H2 ->].
    split; auto. apply live_names_In; auto. apply Ck.
  - destruct H as [H1 H2]. exists (name_hash nm). split; auto.
    apply (rep_lookup _ _ _ _ _ _ (ok_rep _ _ Ck)). split; auto. apply live_names_In in H1; auto. apply Ck.
Qed.
Print Assumptions C54_publish_answers_pending.
(** on an unknown prefix nothing happens *)
Theorem C54_publish_unknown_does_nothing : forall K s p q,
  get_seq p (f_core s) = None -> fp_step K (FeApi (APublish p q)) s = (s, [], Ok tt).
Proof. intros K s p q H. cbn [fp_step api_call]. unfold fp_publish_name. rewrite mbind_get, H. reflexivity. Qed.
Print Assumptions C54_publish_unknown_does_nothing.

(** the interest of a fresh peer is pending when "/a" gets its first update *)
Definition evs_54 : list fev := [FeApi (AAdd pa); FeInterest blank_ask 1000].
Lemma wf_54 : Forall fev_wf evs_54.
Proof. repeat constructor. Qed.
Definition s_54 : fp := Eval vm_compute in fst (full_after Kf evs_54).
Definition o_54 : list fout := Eval vm_compute in snd (full_after Kf evs_54).
Definition k_54 : core := Eval vm_compute in ok_or (core_new 10) (cstep (f_core s_54) (CPublish pa None)).
Example C54_example :
  schemes_ok Kf /\ reaches Kf 0 evs_54 s_54 o_54 /\ no_collision Kf o_54 /\
  get_seq pa (f_core s_54) = Some 0 /\ fev_wf (FeApi (APublish pa None)) /\
  cstep (f_core s_54) (CPublish pa None) = Ok k_54 /\ NoDup (map name_hash (live k_54)) /\
  nm_keys (f_pending s_54) = [blank_ask] /\
  forall key e, nm_find key (f_pending s_54) = Some e ->
     exists d, iblt_sub (fc_fuel Kf) (k_iblt k_54) (fe_iblt e) = Ok d.
Proof.
  split; [apply Kf_ok|]. split; [split; [apply wf_54|vm_compute; reflexivity]|].
  split; [intros pre post k E H; eapply check_free_ok; [|exact E|exact H]; vm_compute; reflexivity|].
  split; [vm_compute; reflexivity|]. split; [repeat constructor|]. split; [vm_compute; reflexivity|].
  split; [apply check_nodup; vm_compute; reflexivity|]. split; [vm_compute; reflexivity|].
  assert (f_pending s_54 = [(blank_ask, mkFentry (iblt_new 10) 1000)]) as -> by (vm_compute; reflexivity).
  intros key e. cbn [nm_find]. destruct (name_eqb key blank_ask); [|discriminate]. intros [= <-].
  eexists. vm_compute. reflexivity.
Qed.
