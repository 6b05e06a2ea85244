(** Property theorems about groups of full-sync nodes on an arbitrary network (C62). *)
From Coq Require Import List NArith ZArith Bool Arith Lia.
From Coq.Strings Require Import Byte.
From Verif Require Import Base Mon MonFacts Iblt BaseFacts Tlv State NMap TlvFacts NMapFacts Codec CodecFacts Store StoreFacts
  Producer SpecProducer ProducerFacts Properties_Producer Partial SpecPartial Properties_Partial
  Full FullTrace SpecFull FullFacts Properties_Full SpecExchange ExchangeFacts Properties_Exchange SpecGroup GroupFacts.
Import ListNotations.
Local Open Scope N_scope.

(** * C62 *)
(** whatever the network did, and whatever events the nodes went through: a sequence number other than
    0 that a node holds was announced by an application at some node of the group *)
Theorem C62_invents_nothing : forall K m g0 g,
  group_ok K m -> SpecGroup.started K m g0 -> group_run K m g0 g ->
  (forall i, (i < m)%nat -> all_sendable (K i) (ops_of (sn_out (g i)))) -> unmixed K m g ->
  forall i p v, (i < m)%nat -> get_seq p (f_core (sn_state (g i))) = Some v ->
    v = 0 \/ exists j, (j < m)%nat /\ announced (fc_n (K j)) (ops_of (sn_out (g j))) p v.
Proof.
  intros K m g0 g Ok S R Sd Un i p v Hi G. pose proof (group_run_ok K m Ok g0 g S R Sd Un i Hi) as N.
  destruct N as [[P Iv] _ Up _]. destruct Iv as [W Co _ _ _ _ _].
  destruct (seq_origin (fc_n (K i)) _ p v W _ Co G) as [Z|[A|A]]; [left; auto|right; eauto|exact (Up p v A)].
Qed.
Print Assumptions C62_invents_nothing.
(** and so was every sequence number that a node ever reported to its application *)
Theorem C62_reports_announced : forall K m g0 g,
  group_ok K m -> SpecGroup.started K m g0 -> group_run K m g0 g ->
  (forall i, (i < m)%nat -> all_sendable (K i) (ops_of (sn_out (g i)))) -> unmixed K m g ->
  forall i l x, (i < m)%nat -> In (FoUpdate l) (sn_out (g i)) -> In x l ->
    mi_high x = 0 \/ exists j, (j < m)%nat /\ announced (fc_n (K j)) (ops_of (sn_out (g j))) (mi_prefix x) (mi_high x).
Proof.
  intros K m g0 g Ok S R Sd Un i l x Hi Hl Hx. pose proof (group_run_ok K m Ok g0 g S R Sd Un i Hi) as [_ _ Up Rp].
  apply Up. eapply Rp; eauto.
Qed.
Print Assumptions C62_reports_announced.
(** a node's sequence number for a prefix never decreases while the application does not remove it *)
Theorem C62_never_decreases : forall K m g0 g g',
  SpecGroup.started K m g0 -> group_run K m g0 g -> group_run K m g g' ->
  forall i p v, (i < m)%nat -> get_seq p (f_core (sn_state (g i))) = Some v ->
    exists o, sn_out (g' i) = sn_out (g i) ++ o /\
      (~ In (CRemove p) (ops_of o) -> exists v', get_seq p (f_core (sn_state (g' i))) = Some v' /\ v <= v').
Proof.
  intros K m g0 g g' S R R' i p v Hi G.
  destruct (S i Hi) as (sys & Re). destruct (reaches_core _ _ _ _ _ Re) as [W0 C0].
  destruct (group_run_core K m g0 g i Hi R) as (o0 & _ & C1 & W1).
  destruct (group_run_core K m g g' i Hi R') as (o & E & C2 & W2).
  exists o. split; [exact E|]. intros No.
  assert (pfx_ok (k_prefixes (f_core (sn_state (g i))))) as Pf.
  { eapply crun_pfx; [eapply crun_pfx; [apply core_new_pfx|exact W0|exact C0]|exact W1|exact C1]. }
  clear E R' S R Re C0 C1 W0 W1. revert v G. revert C2 W2 No Pf. generalize (f_core (sn_state (g i))).
  induction (ops_of o) as [|c ops IH]; intros k C2 W2 No Pf v G.
  - injection C2 as <-. exists v. split; auto. lia.
  - cbn [crun] in C2. apply obind_ok in C2 as (k1 & E1 & C2). inversion W2; subst.
    assert (exists v1, get_seq p k1 = Some v1 /\ v <= v1) as (v1 & G1 & L1).
    { rewrite (get_seq_step p k c k1 Pf E1), G. destruct c as [q|q|q s|q s]; cbn [seq_step].
      - destruct (name_eqb p q); eexists; (split; [reflexivity|lia]).
      - destruct (name_eqb p q) eqn:Eq; [|eexists; (split; [reflexivity|lia])].
        apply name_eqb_eq in Eq. subst q. exfalso. apply No. left. reflexivity.
      - destruct (name_eqb p q); eexists; (split; [reflexivity|lia]).
      - destruct s; destruct (name_eqb p q); eexists; (split; [reflexivity|lia]). }
    destruct (IH k1 C2 H2) with (v := v1) as (v' & G' & L'); auto.
    + intros X. apply No. right. exact X.
    + eapply cstep_pfx; eauto.
    + exists v'. split; auto. lia.
Qed.
Print Assumptions C62_never_decreases.

(** ** A group of two: the application at the first publishes, the second asks and takes over *)
Lemma had_added n ops p : forall k v, crun (core_new n) ops = Ok k -> Forall cop_wf ops -> get_seq p k = Some v -> In (CAdd p) ops.
Proof.
  induction ops as [|o ops IH] using rev_ind; intros k v E W G; [injection E as <-; discriminate|].
  apply Forall_app in W as [W Wo]. inversion Wo; subst. rewrite crun_app in E. apply obind_ok in E as (k1 & E1 & E).
  cbn [crun] in E. apply obind_ok in E as (k2 & E2 & E). injection E as <-.
  assert (pfx_ok (k_prefixes k1)) as P1 by (eapply crun_pfx; [apply core_new_pfx|exact W|exact E1]).
  rewrite (get_seq_step p k1 o k2 P1 E2) in G. apply in_or_app.
  destruct (get_seq p k1) as [u|] eqn:Gu; [left; eauto|]. right.
  destruct o as [q|q|q s|q s]; cbn [seq_step] in G; try destruct s; destruct (name_eqb p q) eqn:Eq; try discriminate.
  apply name_eqb_eq in Eq. subst. left. reflexivity.
Qed.
Definition numbers (ops : list cop) (p : name) : list name :=
  append_number p 0 :: flat_map (fun o => match o with
    | CUpdate q v | CPublish q (Some v) => if name_eqb q p then [append_number p v] else [] | _ => [] end) ops.
Definition explicit (ops : list cop) : bool :=
  forallb (fun o => match o with CPublish _ None => false | _ => true end) ops.
(** the names a node may have sent, for a history in which all numbers are explicit *)
Lemma carried_among n ops nm : Forall cop_wf ops -> explicit ops = true -> carried n ops nm ->
  exists p, In (CAdd p) ops /\ In nm (numbers ops p).
Proof.
  intros W Ex (p & v & -> & H).
  assert (In (CAdd p) ops) as A.
  { destruct H as [(pre & post & k & -> & E & G)|(pre & post & q & k & cur & -> & E & G & _)];
      apply Forall_app in W as [W _]; apply in_or_app; left; eapply had_added; eauto. }
  exists p. split; auto. unfold numbers.
  assert (announced n ops p v -> In (append_number p v) (numbers ops p)) as An.
  { intros (pre & post & q & k & cur & -> & E & G & V). unfold explicit in Ex. rewrite forallb_forall in Ex.
    specialize (Ex (CPublish p q) ltac:(apply in_or_app; right; left; reflexivity)). destruct q as [x|]; [|discriminate]. subst v.
    right. apply in_flat_map. exists (CPublish p (Some x)). split; [apply in_or_app; right; left; reflexivity|].
    rewrite name_eqb_refl. left. reflexivity. }
  destruct H as [H|H]; [|exact (An H)].
  destruct (had_origin _ _ _ _ W H) as [->|[H1|H1]]; [left; reflexivity|exact (An H1)|].
  right. apply in_flat_map. exists (CUpdate p v). split; auto. rewrite name_eqb_refl. left. reflexivity.
Qed.
Lemma among_small L ops l : Forall cop_wf ops -> explicit ops = true ->
  (forall p nm, In (CAdd p) ops -> In nm (numbers ops p) -> In nm l) ->
  (length l <= 8)%nat -> forallb (fun n => Nat.leb (length (name_wire n)) 100) l = true -> Forall wf_name l ->
  fc_codec L = codec_none -> fc_cscheme L = SNone -> all_sendable L ops.
Proof.
  intros W Ex Al Hl Hw Hf Ec Es x Nx Ix.
  assert (incl x l) as Il.
  { intros nm Hn. destruct (carried_among _ _ _ W Ex (Ix nm Hn)) as (p & A & B). eauto. }
  assert (length x <= 8)%nat as L1 by (etransitivity; [apply NoDup_incl_length; eauto|auto]).
  assert (length (flat_map name_wire x) <= 800)%nat as L2.
  { etransitivity; [apply (sum_flat name_wire 100)|lia]. intros y Hy. rewrite forallb_forall in Hw.
    apply Nat.leb_le. apply Hw. auto. }
  assert (N.of_nat (length (flat_map name_wire x)) < 1000) as L3 by lia.
  split.
  - split; [rewrite Forall_forall in *; auto|]. eapply N.lt_trans; [exact L3|reflexivity].
  - intros b E. rewrite Ec, Es in E. change (Ok (encode_names x) = Ok b) in E. injection E as <-. unfold encode_names, tlv.
    rewrite !app_length.
    assert (forall n, (length (write_var n) <= 9)%nat) as Lv.
    { intros n. unfold write_var. destruct (_ <? _); [simpl; lia|]. destruct (_ <=? _); [cbn [length]; rewrite be_enc_length; lia|].
      destruct (_ <=? _); cbn [length]; rewrite be_enc_length; lia. }
    pose proof (Lv TYPE_PSYNC_CONTENT). pose proof (Lv (N.of_nat (length (flat_map name_wire x)))).
    eapply N.lt_trans with (m := 2000); [lia|reflexivity].
Qed.

Definition env_62 (i : nat) : env :=
  mkEnv (fun k => match i with O => 1000 | _ => 2000 end + N.of_nat k) (en_digest env_example) (en_jitter env_example) (en_uri env_example).
Definition K_62 (i : nat) : fcfg := mkFcfg syncp 10 SNone SNone 1000 1000 codec_none (env_62 i) 100.
Definition z_62 : fp * list fout := Eval vm_compute in full_after (K_62 0) [].
Definition a1_62 := Eval vm_compute in fp_step (K_62 0) (FeApi (AAdd pa)) (fst z_62).
Definition a2_62 := Eval vm_compute in fp_step (K_62 0) (FeApi (APublish pa (Some 7))) (st3 a1_62).
Definition n_62 : name := Eval vm_compute in fetch_name 0 (fst z_62).
Definition a3_62 := Eval vm_compute in fp_step (K_62 0) (FeInterest n_62 1000) (st3 a2_62).
Definition d_62 : data := Eval vm_compute in first_data a3_62.
Definition b1_62 := Eval vm_compute in fp_step (K_62 1) (FeContent 0 (d_content d_62) []) (fst z_62).
Definition sees (s : seen_node) (x : fp * list fout * outcome unit) : seen_node := mkSeen (st3 x) (sn_out s ++ snd (fst x)).
Definition z0 : seen_node := Eval vm_compute in mkSeen (fst z_62) (snd z_62).
Definition za1 : seen_node := Eval vm_compute in sees z0 a1_62.
Definition za2 : seen_node := Eval vm_compute in sees za1 a2_62.
Definition za3 : seen_node := Eval vm_compute in sees za2 a3_62.
Definition zb1 : seen_node := Eval vm_compute in sees z0 b1_62.
Definition two (a b : seen_node) (i : nat) : seen_node := match i with O => a | S O => b | _ => z0 end.
Lemma run_62 : group_run K_62 2 (two z0 z0) (two za3 zb1).
Proof.
  assert (forall a b a', (exists e s o r, fev_wf e /\ delivers (soup 2 (two a b)) (sn_state a) e /\
     fp_step (K_62 0) e (sn_state a) = (s, o, r) /\ r = Ok tt /\ a' = mkSeen s (sn_out a ++ o)) ->
     group_step K_62 2 (two a b) (two a' b)) as Left.
  { intros a b a' (e & s & o & r & W & D & E & -> & ->).
    apply (group_event K_62 2 (two a b) 0 e s o (Ok tt)); auto; try lia. intros [|j] Hj; [congruence|reflexivity]. }
  assert (group_run K_62 2 (two z0 z0) (two za3 z0)) as H.
  { apply (group_next _ _ _ (two za2 z0)); [apply (group_next _ _ _ (two za1 z0)); [apply (group_next _ _ _ (two z0 z0)); [constructor|]|]|]; apply Left.
    - exists (FeApi (AAdd pa)). do 3 eexists. split; [repeat constructor|]. split; [exact I|]. split; [run|]. split; [reflexivity|run].
    - exists (FeApi (APublish pa (Some 7))). do 3 eexists. split; [repeat constructor|]. split; [exact I|]. split; [run|]. split; [reflexivity|run].
    - exists (FeInterest n_62 1000). do 3 eexists. split; [apply wf_nil; reflexivity|]. split; [exact I|]. split; [run|]. split; [reflexivity|run]. }
  eapply group_next; [exact H|].
  apply (group_event K_62 2 (two za3 z0) 1 (FeContent 0 (d_content d_62) []) (st3 b1_62) (snd (fst b1_62)) (Ok tt)).
  - lia.
  - apply wf_nil; reflexivity.
  - intros n Hn. assert (n = n_62) as -> by (cut (Some n = Some n_62); [congruence|rewrite <- Hn; run]).
    exists (firstn 4 (d_name d_62)), [d_62], d_62, (mkComp TYPE_SEGMENT [x00]), 0.
    split; [run|]. split; [left; reflexivity|]. split; [run|]. split; [run|]. split; [reflexivity|]. split.
    + intros [|[|i]] x Hx; [|discriminate|discriminate]. injection Hx as <-. split; [|run].
      exists 0%nat. split; [lia|]. apply data_of_In. left. run.
    + symmetry. exact (app_nil_r (d_content d_62)).
  - run.
  - left. reflexivity.
  - run.
  - intros [|[|j]] Hj; [reflexivity|congruence|reflexivity].
Qed.
Definition all_62 : list name := [append_number pa 0; append_number pa 7].
Lemma sendable_62 i : (i < 2)%nat -> all_sendable (K_62 i) (ops_of (sn_out (two za3 zb1 i))).
Proof.
  intros Hi. assert (ops_of (sn_out (two za3 zb1 i)) = [CAdd pa; match i with O => CPublish pa (Some 7) | _ => CUpdate pa 7 end]) as ->.
  { destruct i as [|[|i]]; [run|run|lia]. }
  apply (among_small _ _ all_62).
  - destruct i; repeat constructor.
  - destruct i; reflexivity.
  - intros p nm [E|[E|[]]]; [|destruct i; discriminate]. injection E as <-. destruct i; cbn; rewrite ?name_eqb_refl; cbn; tauto.
  - simpl. lia.
  - run.
  - apply wf_check_ok. run.
  - reflexivity.
  - reflexivity.
Qed.
Example C62_example :
  group_ok K_62 2 /\ SpecGroup.started K_62 2 (two z0 z0) /\ group_run K_62 2 (two z0 z0) (two za3 zb1) /\
  (forall i, (i < 2)%nat -> all_sendable (K_62 i) (ops_of (sn_out (two za3 zb1 i)))) /\ unmixed K_62 2 (two za3 zb1) /\
  get_seq pa (f_core (sn_state zb1)) = Some 7 /\
  In (FoUpdate [mkMissing pa 1 7 0]) (sn_out zb1) /\ ~ In (CPublish pa (Some 7)) (ops_of (sn_out zb1)).
Proof.
  split; [split|split; [|split; [exact run_62|split; [exact sendable_62|split; [|split; [run|split]]]]]].
  - intros i j _ _. repeat split.
  - intros i _. apply lossless_none.
  - intros i Hi. exists 0%Z. split; [constructor|]. destruct i as [|[|i]]; [run|run|lia].
  - left. split.
    + intros [|[|i]] a Hi Ha; try lia; change (publications _) with 1%nat in Ha || change (publications _) with 0%nat in Ha; [|lia].
      assert (a = 0)%nat as -> by lia. reflexivity.
    + intros [|[|i]] [|[|j]] a b Hi Hj Ha Hb E; try lia; change (publications (two za3 zb1 0)) with 1%nat in *;
        change (publications (two za3 zb1 1)) with 0%nat in *; lia.
  - cbv. tauto.
  - cbv. intros [H|[H|[]]]; discriminate.
Qed.
