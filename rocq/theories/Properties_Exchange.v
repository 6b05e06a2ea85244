(** Property theorems about two or more full-sync nodes (C60, C61, C63). *)
From Coq Require Import List NArith ZArith Bool Arith Lia Sorted.
From Coq.Strings Require Import Byte.
From Verif Require Import Base Mon MonFacts Iblt BaseFacts IbltFacts SpecIblt HonestFacts IbltProps
  Tlv State NMap TlvFacts NMapFacts Codec CodecFacts Properties_Iblt Store StoreFacts
  Producer SpecProducer ProducerFacts Properties_Producer Partial SpecPartial PartialFacts PartialSteps Properties_Partial
  Full FullTrace SpecFull FullFacts FullSafe FullSteps FullData FullRuns FullReplies Properties_Full
  SpecExchange ExchangeFacts.
Import ListNotations.
Local Open Scope N_scope.

(** * C60 *)
(** [a] answers the interest by which [b] asked; by the time [b] has the content, [b] may have gone
    through anything that did not make it forget (state [b1]), and its application may call anything
    but a removal from the callback *)
Theorem C60_exchange_merges : forall Ka Kb sysa evsa a oa sysb evsb b ob i n l a' o d ds buf sysb1 evsb1 b1 ob1 script b' o',
  reaches Ka sysa evsa a oa -> no_collision Ka oa -> reaches Kb sysb evsb b ob -> no_collision Kb ob ->
  peers Ka Kb a b ->
  asks Kb (f_core b) n -> reply_from_store n (f_pub a) = None ->
  fp_step Ka (FeInterest n l) a = (a', o, Ok tt) -> data_of o = d :: ds -> fetched (f_pub a') d buf ->
  reaches Kb sysb1 evsb1 b1 ob1 -> (forall p, knows b p <= knows b1 p) ->
  fetch_of i (f_live b1) = Some n -> fev_wf (FeContent i buf script) ->
  (forall p, ~ In (CRemove p) (map api_op script)) ->
  fp_step Kb (FeContent i buf script) b1 = (b', o', Ok tt) ->
  forall p, knows a' p = knows a p /\ knows a p <= knows b' p /\ knows b1 p <= knows b' p.
Proof.
  intros Ka Kb sysa evsa a oa sysb evsb b ob i n l a' o d ds buf sysb1 evsb1 b1 ob1 script b' o'
    Ra Ca Rb Cb P As Hr St Do Fe R1 Mo Hf Wf Hs St1 p.
  pose proof (reaches_node False _ _ _ _ _ Ra Ca ltac:(intros [])) as Na.
  pose proof (reaches_node False _ _ _ _ _ Rb Cb ltac:(intros [])) as Nb.
  destruct (asked False Ka Kb a b n l a' o (Ok tt) Na Nb P As Hr St) as (_ & Q & [[X _]|(names & fr & An & _ & Nw)]); [congruence|].
  rewrite Do in An.
  pose proof (asked_content False Ka Kb a b n _ _ _ _ _ _ _ Na P As Hr An Nw Fe) as Cn.
  unfold fev_wf in Wf. cbn [ev_ops] in Wf. rewrite Forall_map in Wf.
  destruct (content_covers Kb i buf script names b1 b' o' n (reaches_pfx _ _ _ _ _ R1) Wf Hs Hf Cn St1) as [M Co].
  split; [unfold knows; rewrite Q; reflexivity|]. split; [|exact (M p)].
  destruct (N.lt_ge_cases (knows b p) (knows a p)) as [Lt|Ge].
  - apply Co; [|apply kn_lt; eapply node_fine; eauto]. apply Nw. exact Lt.
  - etransitivity; [exact Ge|]. etransitivity; [apply Mo|exact (M p)].
Qed.
Print Assumptions C60_exchange_merges.
(** nothing but that happens: with an application that calls nothing, the asking node then knows
    exactly the maximum, or the asked node stayed silent and nothing changed *)
Theorem C60_exchange_outcome : forall Ka Kb sysa evsa a oa sysb evsb b ob a' b',
  reaches Ka sysa evsa a oa -> no_collision Ka oa -> reaches Kb sysb evsb b ob -> no_collision Kb ob ->
  peers Ka Kb a b -> exchange Ka Kb a b a' b' ->
  (forall p, knows a' p = knows a p) /\
  ((forall p, knows b' p = N.max (knows a p) (knows b p)) \/
   (forall p, knows b' p = knows b p) /\ k_count (f_core a) <= k_count (f_core b)).
Proof.
  intros Ka Kb sysa evsa a oa sysb evsb b ob a' b' Ra Ca Rb Cb P X.
  pose proof (reaches_node False _ _ _ _ _ Ra Ca ltac:(intros [])) as Na.
  pose proof (reaches_node False _ _ _ _ _ Rb Cb ltac:(intros [])) as Nb.
  destruct (ask_outcome False Ka Kb a b a' b' Na Nb P X) as (_ & Q & _ & O).
  split; [intros p; unfold knows; rewrite Q; reflexivity|]. destruct O as [O|[E (d & _ & _ & R)]]; auto.
  right. split; [intros p; unfold knows; rewrite E; reflexivity|]. destruct R as [R|[R _]]; lia.
Qed.
Print Assumptions C60_exchange_outcome.

(** * C61 *)
Theorem C61_two_nodes_converge : forall Ka Kb sysa evsa a oa sysb evsb b ob a' b',
  reaches Ka sysa evsa a oa -> no_collision Ka oa -> no_removal (ops_of oa) ->
  reaches Kb sysb evsb b ob -> no_collision Kb ob -> no_removal (ops_of ob) ->
  peers Ka Kb a b -> total (f_core a) + total (f_core b) < two64 ->
  meeting Ka Kb (a, b) (a', b') ->
  forall p, both_know a' b' p (N.max (knows a p) (knows b p)).
Proof.
  intros Ka Kb sysa evsa a oa sysb evsb b ob a' b' Ra Ca Na Rb Cb Nb P Ht M p.
  pose proof (reaches_node True _ _ _ _ _ Ra Ca (fun _ => Na)) as Da.
  pose proof (reaches_node True _ _ _ _ _ Rb Cb (fun _ => Nb)) as Db.
  destruct (meeting_tops Ka Kb a b Da Db P) with (y := (a', b')) as (_ & Ta & Tb); auto.
  - intros k F H. eapply N.le_lt_trans; [|exact Ht]. apply total_max; auto; eapply node_fine; eauto.
  - split; [apply Ta|apply Tb].
Qed.
Print Assumptions C61_two_nodes_converge.
(** a group in which every pair met, in any order, agrees on the highest sequence numbers *)
Theorem C61_group_converges : forall K m g sys evs o l g',
  (forall i, (i < m)%nat -> reaches (K i) (sys i) (evs i) (g i) (o i) /\ no_collision (K i) (o i) /\
     no_removal (ops_of (o i))) ->
  group K m g -> gossip K m l g g' ->
  (forall i j, (i < m)%nat -> (j < m)%nat -> i <> j -> In (i, j) l \/ In (j, i) l) ->
  forall i p, (i < m)%nat ->
    (forall j, (j < m)%nat -> knows (g j) p <= knows (g' i) p) /\
    exists j, (j < m)%nat /\ knows (g' i) p = knows (g j) p.
Proof.
  intros K m g sys evs o l g' H G Go All i p Hi.
  assert (forall i, (i < m)%nat -> node True (K i) (g i)) as N0.
  { intros x Hx. destruct (H x Hx) as (R & C & Nr). eapply reaches_node; eauto. }
  assert (ginv K m g g) as I0.
  { split; auto; [|intros; reflexivity]. intros x q Hx. exists x. auto. }
  destruct (gossip_inv K m g N0 G l g g' I0 Go) as ([_ Fr _] & Mo & X). split.
  - intros j Hj. destruct (Nat.eq_dec i j) as [->|Ne]; [apply Mo; auto|]. apply X; auto.
  - apply (Fr i p Hi).
Qed.
Print Assumptions C61_group_converges.

(** * C63 *)
Theorem C63_quiescence : forall Ka Kb sysa evsa a oa sysb evsb b ob n l,
  reaches Ka sysa evsa a oa -> no_collision Ka oa -> reaches Kb sysb evsb b ob -> no_collision Kb ob ->
  same_group Ka Kb -> lossless (fc_codec Ka) -> (0 < fc_fuel Ka)%nat ->
  (forall p, knows a p = knows b p) ->
  asks Kb (f_core b) n -> reply_from_store n (f_pub a) = None ->
  exists a' e, fp_step Ka (FeInterest n l) a = (a', [], Ok tt) /\
    f_core a' = f_core a /\ f_pub a' = f_pub a /\ f_live a' = f_live a /\ f_waiting a' = f_waiting a /\
    nm_find n (f_pending a') = Some e /\ fe_expiry e = f_now a + l.
Proof.
  intros Ka Kb sysa evsa a oa sysb evsb b ob n l Ra Ca Rb Cb G Lo Hf H As Hr.
  pose proof (reaches_node False _ _ _ _ _ Ra Ca ltac:(intros [])) as Na.
  pose proof (reaches_node False _ _ _ _ _ Rb Cb ltac:(intros [])) as Nb.
  assert (full_request Ka n (k_iblt (f_core b)) (k_count (f_core b))) as Rq.
  { eapply asks_request; eauto; [apply (no_core _ _ _ Nb)|eapply node_count; eauto]. }
  assert (live (f_core b) = live (f_core a)) as El.
  { apply live_ext; try (eapply node_fine; eauto). intros p. symmetry. apply H. }
  pose proof (core_ok_ibf _ _ (no_core _ _ _ Na)) as Ia. pose proof (core_ok_ibf _ _ (no_core _ _ _ Nb)) as Ib.
  replace (fc_n Kb) with (fc_n Ka) in Ib by apply G. rewrite El in Ib.
  assert (forall x : list N, only_in x x = []) as Oe.
  { intros x. destruct (only_in x x) as [|y ys] eqn:E; auto. assert (In y (only_in x x)) as X by (rewrite E; left; auto).
    apply only_in_In in X. tauto. }
  assert (forall x : list N, signed_diff x x = []) as Se by (intros x; unfold signed_diff; rewrite Oe; reflexivity).
  assert (NoDup (map name_hash (live (f_core a)))) as Nd by (eapply live_hashes; apply (no_core _ _ _ Na)).
  destruct (iblt_sub_honest _ _ _ _ _ (fc_fuel Ka) Nd Nd Ia Ib) as (d & Ed & Hp & Hn & Hc & _).
  { rewrite Se. intros x _ Hx L. destruct x as [|y ys]; [simpl in L; lia|]. destruct (Hx y (or_introl eq_refl)). }
  { rewrite Se. exact Hf. }
  assert (can_decode d = true) as Cd.
  { apply Hc. rewrite Oe. exists []. split; constructor. }
  assert (positive d = []) as Ep by (destruct (positive d) as [|y ys]; auto; destruct (Hp y (or_introl eq_refl)); contradiction).
  assert (negative d = []) as En by (destruct (negative d) as [|y ys]; auto; destruct (Hn y (or_introl eq_refl)); contradiction).
  rewrite (step_request _ _ _ _ _ _ Rq), (finterest_request _ _ _ _ _ _ _ Rq), Hr, mbind_lift, Ed, Cd.
  unfold on_decoded. rewrite mbind_get, Ep, En, mbind_mod.
  destruct (nm_find n (add_fpending n (k_iblt (f_core b)) (f_now a + l) (f_pending a))) as [e|] eqn:E.
  - exists (fset_pending (add_fpending n (k_iblt (f_core b)) (f_now a + l) (f_pending a)) a), e.
    split; [reflexivity|]. repeat (split; [reflexivity|]). split; [exact E|].
    unfold add_fpending in E. destruct (nm_find n (f_pending a)); rewrite nm_find_set, name_eqb_refl in E; injection E as <-; reflexivity.
  - unfold add_fpending in E. destruct (nm_find n (f_pending a)); rewrite nm_find_set, name_eqb_refl in E; discriminate.
Qed.
Print Assumptions C63_quiescence.

(** ** Two nodes that meet: one has [pa] at 4 and [pb] at 5, the other [pa] at 7 *)
Definition evs_61 : list fev := [FeApi (AAdd pa); FeApi (APublish pa (Some 7)); FeTick 2000; FeSend].
Definition b_61 : fp := Eval vm_compute in fst (full_after Kf evs_61).
Definition ob_61 : list fout := Eval vm_compute in snd (full_after Kf evs_61).
Lemma reach_61 : reaches Kf 0 evs_61 b_61 ob_61.
Proof. split; [repeat constructor|vm_compute; reflexivity]. Qed.
Lemma free_61 : no_collision Kf ob_61.
Proof. intros pre post k E H. eapply check_free_ok; [|exact E|exact H]. vm_compute. reflexivity. Qed.

(** the names of a node and the ones that follow them *)
Definition names_next (k : core) : list name :=
  flat_map (fun x => if snd x =? 0 then [] else
    [append_number (fst x) (snd x); append_number (fst x) ((snd x + 1) mod two64)]) (k_prefixes k).
Lemma names_next_In k nm : has_or_next k nm -> In nm (names_next k).
Proof.
  intros (p & v & E & Z & H). unfold names_next. apply in_flat_map. exists (p, v). split; [apply nm_find_In; exact E|].
  cbn [fst snd]. apply N.eqb_neq in Z. rewrite Z. destruct H as [->| ->]; simpl; auto.
Qed.
Definition inj_check (l : list name) : bool :=
  forallb (fun x => forallb (fun y => negb (name_hash x =? name_hash y) || name_eqb x y) l) l.
Lemma distinct_check k k' : inj_check (names_next k ++ names_next k') = true -> distinct_hashes k k'.
Proof.
  unfold inj_check. rewrite forallb_forall. intros H x y Hx Hy E.
  assert (forall z, has_or_next k z \/ has_or_next k' z -> In z (names_next k ++ names_next k')) as I.
  { intros z [Hz|Hz]; apply in_or_app; [left|right]; apply names_next_In; auto. }
  specialize (H x (I x Hx)). rewrite forallb_forall in H. specialize (H y (I y Hy)).
  rewrite E, N.eqb_refl in H. apply name_eqb_eq. exact H.
Qed.
Lemma sum_flat {A} (f : A -> list byte) b l : (forall x, In x l -> (length (f x) <= b)%nat) ->
  (length (flat_map f l) <= length l * b)%nat.
Proof.
  induction l as [|x l IH]; intros H; simpl; [lia|]. rewrite app_length. pose proof (H x (or_introl eq_refl)).
  assert (length (flat_map f l) <= length l * b)%nat by (apply IH; intros; apply H; right; auto). lia.
Qed.
Lemma sendable_small L k k' : (length (live k ++ live k') <= 8)%nat ->
  forallb (fun n => Nat.leb (length (name_wire n)) 100) (live k ++ live k') = true ->
  Forall wf_name (live k ++ live k') -> fc_codec L = codec_none -> fc_cscheme L = SNone -> sendable L k k'.
Proof.
  intros Hl Hw Hf Ec Es l Nl Il.
  assert (length l <= 8)%nat as L1 by (etransitivity; [apply NoDup_incl_length; eauto|auto]).
  assert (length (flat_map name_wire l) <= 800)%nat as L2.
  { etransitivity; [apply (sum_flat name_wire 100)|lia]. intros x Hx. rewrite forallb_forall in Hw.
    apply Nat.leb_le. apply Hw. auto. }
  assert (N.of_nat (length (flat_map name_wire l)) < 1000) as L3 by lia.
  split.
  - split; [rewrite Forall_forall in *; auto|]. eapply N.lt_trans; [exact L3|reflexivity].
  - intros b E. rewrite Ec, Es in E. change (Ok (encode_names l) = Ok b) in E. injection E as <-. unfold encode_names, tlv.
    rewrite !app_length.
    assert (forall n, (length (write_var n) <= 9)%nat) as Lv.
    { intros n. unfold write_var. destruct (_ <? _); [simpl; lia|]. destruct (_ <=? _); [cbn [length]; rewrite be_enc_length; lia|].
      destruct (_ <=? _); cbn [length]; rewrite be_enc_length; lia. }
    pose proof (Lv TYPE_PSYNC_CONTENT). pose proof (Lv (N.of_nat (length (flat_map name_wire l)))).
    eapply N.lt_trans with (m := 2000); [lia|reflexivity].
Qed.
Definition wf_check (l : list name) : bool :=
  forallb (fun n => forallb (fun c => (0 <? ctype c) && (ctype c <? two32) && (N.of_nat (length (cval c)) <? two64)) n &&
                    (N.of_nat (length (name_value n)) <? two64)) l.
Lemma wf_check_ok l : wf_check l = true -> Forall wf_name l.
Proof.
  unfold wf_check. rewrite forallb_forall, Forall_forall. intros H n Hn. specialize (H n Hn).
  apply andb_prop in H as [H1 H2]. split; [|apply N.ltb_lt; exact H2].
  rewrite forallb_forall in H1. apply Forall_forall. intros c Hc. specialize (H1 c Hc).
  apply andb_prop in H1 as [H1 H3]. apply andb_prop in H1 as [H1 H4].
  apply N.ltb_lt in H1, H3, H4. split; [lia|auto].
Qed.
Lemma peers_61 : peers Kf Kf s_52 b_61.
Proof.
  assert (exact_diff Kf (f_core s_52) (map name_hash (live (f_core b_61))) /\
          exact_diff Kf (f_core b_61) (map name_hash (live (f_core s_52)))) as X.
  { split; (split; [|apply Nat.ltb_lt; vm_compute; reflexivity]);
    (apply no_coincidence_b_ok; [eapply NoDup_map_inv; apply signed_diff_keys; apply check_nodup; vm_compute; reflexivity|];
     vm_compute; reflexivity). }
  split.
  - repeat split.
  - apply Kf_ok.
  - apply lossless_none.
  - split; apply Kf_ok.
  - apply distinct_check. vm_compute. reflexivity.
  - apply sendable_small; [apply Nat.leb_le; vm_compute; reflexivity|vm_compute; reflexivity| |reflexivity|reflexivity].
    apply wf_check_ok. vm_compute. reflexivity.
  - exact X.
Qed.
(** the states they go through *)
Definition st3 {A B C} (x : A * B * C) : A := fst (fst x).
Definition fetch_name (i : nat) (s : fp) : name := match fetch_of i (f_live s) with Some n => n | None => [] end.
Definition first_data (x : fp * list fout * outcome unit) : data :=
  match data_of (snd (fst x)) with d :: _ => d | [] => mkData [] Blob [] None 0 [] end.
Lemma fetched_one p d base c : d_final d = Some c -> to_segment c = Ok 0 -> d_name d = append_segment base 0 ->
  fetched p d (d_content d).
Proof.
  intros H1 H2 H3. exists base, [d], c, 0. repeat (split; [auto; reflexivity|]). split.
  - intros i x Hi H. destruct i as [|[|i]]; [lia|discriminate|discriminate].
  - simpl. rewrite app_nil_r. reflexivity.
Qed.
(** the second asks, the first answers *)
Definition n1_61 : name := Eval vm_compute in fetch_name 1 b_61.
Definition x1_61 := Eval vm_compute in fp_step Kf (FeInterest n1_61 1000) s_52.
Definition a1_61 : fp := Eval vm_compute in st3 x1_61.
Definition d1_61 : data := Eval vm_compute in first_data x1_61.
Definition y1_61 := Eval vm_compute in fp_step Kf (FeContent 1 (d_content d1_61) []) b_61.
Definition b1_61 : fp := Eval vm_compute in st3 y1_61.
(** time passes, the first asks, the second answers *)
Definition at_61 : fp := Eval vm_compute in st3 (fp_step Kf (FeTick 2000) a1_61).
Definition a2_61 : fp := Eval vm_compute in st3 (fp_step Kf FeSend at_61).
Definition n2_61 : name := Eval vm_compute in fetch_name 1 a2_61.
Definition x2_61 := Eval vm_compute in fp_step Kf (FeInterest n2_61 1000) b1_61.
Definition b2_61 : fp := Eval vm_compute in st3 x2_61.
Definition d2_61 : data := Eval vm_compute in first_data x2_61.
Definition y2_61 := Eval vm_compute in fp_step Kf (FeContent 1 (d_content d2_61) []) a2_61.
Definition a3_61 : fp := Eval vm_compute in st3 y2_61.
(** time passes, the second asks again *)
Definition bt_61 : fp := Eval vm_compute in st3 (fp_step Kf (FeTick 2000) b2_61).
Definition b3_61 : fp := Eval vm_compute in st3 (fp_step Kf FeSend bt_61).
Definition n3_61 : name := Eval vm_compute in fetch_name 2 b3_61.
Definition a4_61 : fp := Eval vm_compute in st3 (fp_step Kf (FeInterest n3_61 1000) a3_61).

Lemma asks_check K k n : fc_scheme K = SNone -> n = ask_with K (k_iblt k) (k_count k) -> asks K k n.
Proof.
  intros Es ->. exists (gen (table_bytes (k_iblt k))). split; [|reflexivity]. split; [reflexivity|]. rewrite Es. reflexivity.
Qed.
Ltac run := vm_compute; reflexivity.
Lemma ex1_61 : exchange Kf Kf s_52 b_61 a1_61 b1_61.
Proof.
  apply (ex_data Kf Kf s_52 b_61 1 n1_61 1000 a1_61 (snd (fst x1_61)) d1_61 [] (d_content d1_61) b_61 b1_61 (snd (fst y1_61))).
  - run.
  - apply asks_check; run.
  - run.
  - run.
  - run.
  - apply (fetched_one _ _ (firstn 4 (d_name d1_61)) (mkComp TYPE_SEGMENT [x00])); run.
  - constructor.
  - run.
  - run.
Qed.
Lemma ex2_61 : exchange Kf Kf b1_61 a2_61 b2_61 a3_61.
Proof.
  apply (ex_data Kf Kf b1_61 a2_61 1 n2_61 1000 b2_61 (snd (fst x2_61)) d2_61 [] (d_content d2_61) a2_61 a3_61 (snd (fst y2_61))).
  - run.
  - apply asks_check; run.
  - run.
  - run.
  - run.
  - apply (fetched_one _ _ (firstn 4 (d_name d2_61)) (mkComp TYPE_SEGMENT [x00])); run.
  - constructor.
  - run.
  - run.
Qed.
Lemma ex3_61 : exchange Kf Kf a3_61 b3_61 a4_61 b3_61.
Proof.
  apply (ex_silent Kf Kf a3_61 b3_61 2 n3_61 1000 a4_61 []); [run|apply asks_check; run|run|run|reflexivity].
Qed.
Lemma meet_61 : meeting Kf Kf (s_52, b_61) (a4_61, b3_61).
Proof.
  exists [BasksA], [IdleA; AasksB], [IdleB; BasksA], (a1_61, b1_61), (a3_61, b2_61).
  split; [exists (a1_61, b1_61); split; [exact ex1_61|reflexivity]|].
  split.
  { exists (a2_61, b1_61). split.
    - split; [|reflexivity]. eapply (idle_step Kf a1_61 (FeTick 2000) at_61); [run|run|].
      eapply (idle_step Kf at_61 FeSend a2_61); [run|run|]. constructor.
    - exists (a3_61, b2_61). split; [exact ex2_61|reflexivity]. }
  split.
  { exists (a3_61, b3_61). split.
    - split; [|reflexivity]. eapply (idle_step Kf b2_61 (FeTick 2000) bt_61); [run|run|].
      eapply (idle_step Kf bt_61 FeSend b3_61); [run|run|]. constructor.
    - exists (a4_61, b3_61). split; [exact ex3_61|reflexivity]. }
  simpl. tauto.
Qed.
(** the hypotheses of C60 and C61 hold, and the nodes indeed end up with [pa] at 7 and [pb] at 5 *)
Example C60_example :
  reaches Kf 0 evs_52 s_52 o_52 /\ no_collision Kf o_52 /\ reaches Kf 0 evs_61 b_61 ob_61 /\ no_collision Kf ob_61 /\
  peers Kf Kf s_52 b_61 /\ asks Kf (f_core b_61) n1_61 /\ reply_from_store n1_61 (f_pub s_52) = None /\
  (exists o, fp_step Kf (FeInterest n1_61 1000) s_52 = (a1_61, o, Ok tt) /\ data_of o = [d1_61]) /\
  fetched (f_pub a1_61) d1_61 (d_content d1_61) /\ fetch_of 1 (f_live b_61) = Some n1_61 /\
  (exists o', fp_step Kf (FeContent 1 (d_content d1_61) []) b_61 = (b1_61, o', Ok tt)) /\
  knows b_61 pb = 0 /\ knows b1_61 pb = 5 /\ knows b1_61 pa = 7.
Proof.
  split; [apply reach_52|]. split; [apply free_52|]. split; [apply reach_61|]. split; [apply free_61|].
  split; [apply peers_61|]. split; [apply asks_check; run|]. split; [run|].
  split; [eexists; split; run|]. split; [apply (fetched_one _ _ (firstn 4 (d_name d1_61)) (mkComp TYPE_SEGMENT [x00])); run|].
  split; [run|]. split; [eexists; run|]. split; [run|]. split; run.
Qed.
Example C61_example :
  reaches Kf 0 evs_52 s_52 o_52 /\ no_collision Kf o_52 /\ no_removal (ops_of o_52) /\
  reaches Kf 0 evs_61 b_61 ob_61 /\ no_collision Kf ob_61 /\ no_removal (ops_of ob_61) /\
  peers Kf Kf s_52 b_61 /\ total (f_core s_52) + total (f_core b_61) < two64 /\
  meeting Kf Kf (s_52, b_61) (a4_61, b3_61) /\
  both_know a4_61 b3_61 pa 7 /\ both_know a4_61 b3_61 pb 5.
Proof.
  split; [apply reach_52|]. split; [apply free_52|]. split; [apply keeps_all_ok; run|].
  split; [apply reach_61|]. split; [apply free_61|]. split; [apply keeps_all_ok; run|].
  split; [apply peers_61|]. split; [run|]. split; [apply meet_61|]. split; split; run.
Qed.
(** a group of two that meets in this way *)
Definition g_61 (i : nat) : fp := match i with O => s_52 | _ => b_61 end.
Lemma held_61 nm : held 2 g_61 nm -> In nm (live (f_core s_52) ++ live (f_core b_61)).
Proof. intros (i & Hi & H). destruct i as [|[|i]]; [..|lia]; apply in_or_app; auto. Qed.
Fixpoint signings (l : list N) : list (list (Z * N)) :=
  match l with
  | [] => [[]]
  | h :: r => map (cons (1%Z, h)) (signings r) ++ map (cons ((-1)%Z, h)) (signings r)
  end.
Lemma signings_In (f : N -> Z) l : (forall h, f h = 1%Z \/ f h = (-1)%Z) -> In (map (fun h => (f h, h)) l) (signings l).
Proof.
  intros F. induction l as [|h l IH]; simpl; auto. apply in_or_app.
  destruct (F h) as [->| ->]; [left|right]; apply in_map; auto.
Qed.
Lemma exact_all l : NoDup l -> forallb no_coincidence_b (signings l) = true ->
  forall delta, NoDup (map snd delta) ->
    (forall s h, In (s, h) delta -> (s = 1%Z \/ s = (-1)%Z) /\ In h l) ->
    no_coincidence delta /\ (length delta <= length l)%nat.
Proof.
  intros Nl Hb delta Nd Hd.
  set (f := fun h => if existsb (fun x => (fst x =? 1)%Z && (snd x =? h)) delta then 1%Z else (-1)%Z).
  assert (forall h, f h = 1%Z \/ f h = (-1)%Z) as Ff by (intros h; unfold f; destruct (existsb _ _); auto).
  assert (incl delta (map (fun h => (f h, h)) l)) as I.
  { intros [s h] H. destruct (Hd s h H) as [Hs Hl]. apply in_map_iff. exists h. split; auto. f_equal.
    unfold f. destruct (existsb _ delta) eqn:E.
    - apply existsb_exists in E as ([s' h'] & Hin & E). cbn [fst snd] in E. apply andb_prop in E as [E1 E2].
      apply Z.eqb_eq in E1. apply N.eqb_eq in E2. subst s' h'.
      symmetry. eapply snd_functional; eauto.
    - destruct Hs as [->| ->]; auto. exfalso. rewrite <- not_true_iff_false in E. apply E.
      apply existsb_exists. exists (1%Z, h). split; auto. cbn. rewrite N.eqb_refl. reflexivity. }
  split.
  - apply (no_coincidence_incl _ _ I). apply no_coincidence_b_ok.
    + apply (NoDup_map_inv snd). rewrite map_map. cbn [snd]. rewrite map_id. auto.
    + rewrite forallb_forall in Hb. apply Hb. apply signings_In. auto.
  - etransitivity; [|rewrite <- (map_length (fun h => (f h, h)) l); reflexivity].
    apply NoDup_incl_length; auto. eapply NoDup_map_inv; eauto.
Qed.
Lemma group_61 : group (fun _ => Kf) 2 g_61.
Proof.
  assert (forall nm, held_or_next 2 g_61 nm -> has_or_next (f_core s_52) nm \/ has_or_next (f_core b_61) nm) as Hn.
  { intros nm (i & Hi & H). destruct i as [|[|i]]; [..|lia]; auto. }
  split.
  - intros. apply (pe_group _ _ _ _ peers_61).
  - intros. apply Kf_ok.
  - intros. apply lossless_none.
  - intros. apply Kf_ok.
  - intros x y Hx Hy. apply (pe_distinct _ _ _ _ peers_61); auto.
  - intros i l _ Nl H. apply (pe_sendable _ _ _ _ peers_61); auto. intros nm Hm. apply held_61. auto.
  - intros i delta _ Nd H.
    assert (NoDup (map name_hash (live (f_core s_52) ++ live (f_core b_61)))) as N1 by (apply check_nodup; run).
    assert (forallb no_coincidence_b (signings (map name_hash (live (f_core s_52) ++ live (f_core b_61)))) = true) as N2 by run.
    destruct (exact_all _ N1 N2 delta Nd) as [A B].
    + intros s h Hd. destruct (H s h Hd) as [Hs (nm & Hm & ->)]. split; auto. apply in_map. apply held_61. auto.
    + split; auto. eapply Nat.le_lt_trans; [exact B|]. apply Nat.ltb_lt. run.
  - run.
Qed.
Example C61_group_example :
  (forall i, (i < 2)%nat -> exists sys evs o, reaches Kf sys evs (g_61 i) o /\ no_collision Kf o /\ no_removal (ops_of o)) /\
  group (fun _ => Kf) 2 g_61 /\
  exists g', gossip (fun _ => Kf) 2 [(0, 1)]%nat g_61 g' /\ knows (g' 0%nat) pa = 7 /\ knows (g' 1%nat) pb = 5.
Proof.
  split; [|split; [apply group_61|]].
  - intros i Hi. exists 0%Z. destruct i as [|i].
    + exists evs_52, o_52. split; [apply reach_52|]. split; [apply free_52|]. apply keeps_all_ok. run.
    + exists evs_61, ob_61. split; [apply reach_61|]. split; [apply free_61|]. apply keeps_all_ok. run.
  - eexists. split; [eapply (gossip_meet _ _ 0 1 a4_61 b3_61); [lia|lia|discriminate|exact meet_61|constructor]|].
    split; run.
Qed.

(** two nodes that published the same in different order *)
Definition evs_63 : list fev :=
  [FeApi (AAdd pb); FeApi (APublish pb (Some 5)); FeApi (AAdd pa); FeApi (APublish pa (Some 4)); FeTick 2000; FeSend].
Definition b_63 : fp := Eval vm_compute in fst (full_after Kf evs_63).
Definition ob_63 : list fout := Eval vm_compute in snd (full_after Kf evs_63).
Definition n_63 : name := Eval vm_compute in fetch_name 1 b_63.
Example C63_example :
  reaches Kf 0 evs_52 s_52 o_52 /\ no_collision Kf o_52 /\ reaches Kf 0 evs_63 b_63 ob_63 /\ no_collision Kf ob_63 /\
  same_group Kf Kf /\ lossless (fc_codec Kf) /\ (0 < fc_fuel Kf)%nat /\
  (forall p, knows s_52 p = knows b_63 p) /\ asks Kf (f_core b_63) n_63 /\
  reply_from_store n_63 (f_pub s_52) = None /\ fetch_of 1 (f_live b_63) = Some n_63 /\
  live (f_core s_52) = [append_number pa 4; append_number pb 5].
Proof.
  split; [apply reach_52|]. split; [apply free_52|].
  split; [split; [repeat constructor|run]|].
  split. { intros pre post k E H. eapply check_free_ok; [|exact E|exact H]. run. }
  split; [repeat split|]. split; [apply lossless_none|]. split; [apply Nat.ltb_lt; run|].
  split. { intros p. unfold knows, get_seq. replace (k_prefixes (f_core b_63)) with (k_prefixes (f_core s_52)) by run. reflexivity. }
  split; [apply asks_check; run|]. split; [run|]. split; run.
Qed.
