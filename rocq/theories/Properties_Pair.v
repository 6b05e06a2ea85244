(** Property theorems about a partial producer and a consumer on an arbitrary network (C64, C65). *)
From Coq Require Import List NArith ZArith Bool Arith Lia.
From Coq.Strings Require Import Byte.
From Verif Require Import Base BaseFacts Mon MonFacts Iblt SpecIblt HonestFacts Tlv TlvFacts State NMap NMapFacts Codec CodecFacts
  Properties_Iblt Bloom SpecBloom BloomFacts Properties_Bloom Store StoreFacts Producer SpecProducer ProducerFacts Properties_Producer
  Partial SpecPartial PartialFacts PartialSteps Properties_Partial Full SpecFull FullRuns Consumer SpecConsumer ConsumerFacts Properties_Consumer
  SpecExchange ExchangeFacts Properties_Exchange SpecGroup GroupFacts Properties_Group SpecPair PairProducer PairConsumer PairFacts.
Import ListNotations.
Local Open Scope N_scope.

(** * C64 *)
(** Missing: removals of prefixes, and subscriptions that leave a sync interest with the old filter
    outstanding (both refuted below). *)
Theorem C64_current_ibf_means_current_numbers_partial : forall K Kc w0 w p,
  duo_ok K Kc -> fresh_duo K Kc w0 -> duo_run K Kc subscribes_in_hello w0 w ->
  no_removal (history (du_evs w)) -> plain K w -> holds_current_ibf K w ->
  is_subscribed p (du_cons w) = true -> current w p <> None /\ seq_of p (du_cons w) = current w p.
Proof.
  intros K Kc w0 w p Ok2 Fr R Nr Pl Ho Hp. destruct (DI_fresh K Kc w0 Fr) as (b0 & D0).
  destruct (DI_run K Kc Ok2 b0 (fun _ => True) (fun _ => 0) (fun _ => True) subscribes_in_hello w0 w) as [D _]; auto.
  { intros w1 a _ _. apply hello_allowed. }
  destruct (DI_current K Kc Ok2 _ _ _ _ p D Pl Nr Ho I Hp) as (v & u & -> & -> & L1 & L2).
  split; [discriminate|]. f_equal. lia.
Qed.
Print Assumptions C64_current_ibf_means_current_numbers_partial.
(** the consumer is never ahead of the producer, whichever IBF it holds *)
Theorem C64_never_ahead_partial : forall K Kc w0 w p v,
  duo_ok K Kc -> fresh_duo K Kc w0 -> duo_run K Kc subscribes_in_hello w0 w ->
  no_removal (history (du_evs w)) -> plain K w ->
  seq_of p (du_cons w) = Some v -> exists u, current w p = Some u /\ v <= u.
Proof.
  intros K Kc w0 w p v Ok2 Fr R Nr Pl Hv. destruct (DI_fresh K Kc w0 Fr) as (b0 & D0).
  destruct (DI_run K Kc Ok2 b0 (fun _ => True) (fun _ => 0) (fun _ => True) subscribes_in_hello w0 w) as [D _]; auto.
  { intros w1 a _ _. apply hello_allowed. }
  exact (ci_known _ _ _ _ _ _ _ _ _ _ (di_ci _ _ _ _ _ _ D) p v Hv).
Qed.
Print Assumptions C64_never_ahead_partial.

(** * C65 *)
(** the prefix is subscribed at [w1]; if it was updated since then and the consumer holds the current
    IBF, it holds the current number.  Missing: updates between the hello data and the subscription
    (refuted below). *)
Theorem C65_later_updates_arrive_partial : forall K Kc w0 w1 w2 p,
  duo_ok K Kc -> fresh_duo K Kc w0 -> duo_run K Kc subscribes_any_time w0 w1 ->
  is_subscribed p (du_cons w1) = true -> duo_run K Kc (SpecPair.keeps p subscribes_any_time) w1 w2 ->
  no_removal (history (du_evs w2)) -> plain K w2 -> holds_current_ibf K w2 ->
  current w1 p <> current w2 p -> seq_of p (du_cons w2) = current w2 p.
Proof.
  intros K Kc w0 w1 w2 p Ok2 Fr R1 Hp R2 Nr Pl Ho Ne. destruct (DI_fresh K Kc w0 Fr) as (b0 & D0).
  destruct (earlier_run K Kc _ _ _ R2 Pl Nr) as [Pl1 Nr1].
  destruct (DI_run K Kc Ok2 b0 (fun _ => False) (fun _ => 0) (fun _ => True) subscribes_any_time w0 w1) as [D1 _]; auto.
  { intros w a D _. eapply any_allowed; [exact D|]. intros q []. }
  apply (DI_convert K Kc _ _ _ _ p) in D1; auto.
  destruct (DI_run K Kc Ok2 b0 (eq p) (fun q => seq0 (current w1 q)) (fun w => sub (du_cons w) p) (SpecPair.keeps p subscribes_any_time) w1 w2)
    as [D2 S2]; auto.
  { intros w a D Hs [A B]. eapply any_allowed; [exact D| |exact A]. intros q <-. auto. }
  { intros w w' Hs St D. eapply duo_step_sub; [|exact St|exact Hs]. apply (di_ci _ _ _ _ _ _ D). }
  destruct (DI_current K Kc Ok2 _ _ _ _ p D2 Pl Nr Ho eq_refl S2) as (v & u & -> & Eu & L1 & L2). rewrite Eu. f_equal.
  pose proof (di_known _ _ (ci_d _ _ _ _ _ _ _ _ _ _ (di_ci _ _ _ _ _ _ D1)) p Hp) as Hk.
  destruct (known (du_cons w1) p) as [y|] eqn:Ey; [|congruence].
  destruct (ci_known _ _ _ _ _ _ _ _ _ _ (di_ci _ _ _ _ _ _ D1) p y Ey) as (z & Ez & _). rewrite Ez in *. cbn [seq0] in L2.
  destruct (run_below K Kc _ w1 w2 p z R2 Nr) as (u' & Eu' & L3); [exists z; split; [exact Ez|lia]|].
  assert (u' = u) as -> by congruence. assert (u <> z) by congruence. lia.
Qed.
Print Assumptions C65_later_updates_arrive_partial.
(** nor does such a consumer get ahead *)
Theorem C65_never_ahead_partial : forall K Kc w0 w p v,
  duo_ok K Kc -> fresh_duo K Kc w0 -> duo_run K Kc subscribes_any_time w0 w ->
  no_removal (history (du_evs w)) -> plain K w ->
  seq_of p (du_cons w) = Some v -> exists u, current w p = Some u /\ v <= u.
Proof.
  intros K Kc w0 w p v Ok2 Fr R Nr Pl Hv. destruct (DI_fresh K Kc w0 Fr) as (b0 & D0).
  destruct (DI_run K Kc Ok2 b0 (fun _ => False) (fun _ => 0) (fun _ => True) subscribes_any_time w0 w) as [D _]; auto.
  { intros w1 a D _. eapply any_allowed; [exact D|]. intros q []. }
  exact (ci_known _ _ _ _ _ _ _ _ _ _ (di_ci _ _ _ _ _ _ D) p v Hv).
Qed.
Print Assumptions C65_never_ahead_partial.

(** ** Executions *)
Definition on_prod (e : pev) (x : pp * list data * outcome unit) (w : duo) : duo :=
  mkDuo (du_evs w ++ [e]) (fst (fst x)) (du_sent w ++ snd (fst x)) (du_cons w) (du_seen w).
Definition wp (e : pev) (w : duo) : duo := on_prod e (pp_step Kx e (du_prod w)) w.
Definition wc (l : list capi) (w : duo) : duo :=
  let x := calls Kc l (du_cons w) in mkDuo (du_evs w) (du_prod w) (du_sent w) (fst (fst x)) (du_seen w ++ snd (fst x)).
(** fetcher [i] gets packet [d], which is all there is *)
Definition wf (i : nat) (d : data) (sc1 sc2 : list capi) (w : duo) : duo :=
  let x := c_step Kc (CeSegment i d) (du_cons w) in
  let y := c_step Kc (CeContent i (d_content d) sc1 sc2) (fst (fst x)) in
  mkDuo (du_evs w) (du_prod w) (du_sent w) (fst (fst y)) (du_seen w ++ snd (fst x) ++ snd (fst y)).
(** the name the sync interest asks for, and the filter and IBF in it *)
Definition sync_n (w : duo) : name :=
  match filter (fun x => match fst (snd x) with KSync => true | _ => false end) (c_live (du_cons w)) with (_, (_, n)) :: _ => n | _ => [] end.
Definition filter_n (n : name) : comp := nth 4 n (gen []).
Definition wi (w : duo) : duo :=
  on_prod (PInterest (sync_n w) 1000)
    (pend (sync_n w) (sync_n w) (bf_with b_ex (filter_n (sync_n w))) (k_iblt (pp_core (du_prod w))) 1000 (du_prod w), [], Ok tt) w.
Lemma do_prod rule e w : pev_wf e -> snd (pp_step Kx e (du_prod w)) = Ok tt -> duo_step Kx Kc rule w (wp e w).
Proof.
  intros W E. unfold wp, on_prod. destruct (pp_step Kx e (du_prod w)) as [[s o] r] eqn:Es. cbn [fst snd] in *. subst r.
  eapply duo_producer; eauto. left. reflexivity.
Qed.
Lemma do_calls (rule : duo -> activity -> Prop) l w : rule w (AppCalls l) -> snd (calls Kc l (du_cons w)) = Ok tt -> duo_step Kx Kc rule w (wc l w).
Proof.
  intros W E. unfold wc. destruct (calls Kc l (du_cons w)) as [[s o] r] eqn:Es. cbn [fst snd] in *. subst r.
  eapply duo_calls; eauto. left. reflexivity.
Qed.
Lemma do_fetch (rule : duo -> activity -> Prop) i k n d sc1 sc2 w : cfetch i (c_live (du_cons w)) = Some (k, n) ->
  In d (du_sent w) -> is_prefix n (name_prefix_back (d_name d) 1) = true ->
  d_name d = append_segment (name_prefix_back (d_name d) 1) 0 -> d_final d = Some (number_comp TYPE_SEGMENT 0) ->
  rule w (match k with KHello => AppHello (d_content d) sc1 sc2 | KSync => AppSync sc2 end) ->
  snd (c_step Kc (CeSegment i d) (du_cons w)) = Ok tt ->
  snd (c_step Kc (CeContent i (d_content d) sc1 sc2) (fst (fst (c_step Kc (CeSegment i d) (du_cons w))))) = Ok tt ->
  duo_step Kx Kc rule w (wf i d sc1 sc2 w).
Proof.
  intros F D P N Fi R E1 E2. unfold wf. destruct (c_step Kc (CeSegment i d) (du_cons w)) as [[c1 o1] r1] eqn:X. cbn [fst snd] in *. subst r1.
  destruct (c_step Kc (CeContent i (d_content d) sc1 sc2) c1) as [[c2 o2] r2] eqn:Y. cbn [fst snd] in *. subst r2.
  eapply (duo_fetch Kx Kc rule w i k n d); eauto; try (left; reflexivity).
  exists (name_prefix_back (d_name d) 1), [d], (number_comp TYPE_SEGMENT 0), 0.
  split; [exact P|]. split; [left; reflexivity|]. split; [exact Fi|]. split; [reflexivity|]. split; [reflexivity|].
  split; [|symmetry; apply app_nil_r]. intros [|[|j]] x H; [|discriminate|discriminate]. injection H as <-. auto.
Qed.
Lemma do_wait rule w : sync_n w = request Kx (filter_n (sync_n w)) (k_iblt (pp_core (du_prod w))) ->
  length (cval (filter_n (sync_n w))) = 2%nat -> Nat.eqb (length (k_iblt (pp_core (du_prod w)))) (n_entries 10) = true ->
  forallb (fun c => in_i32 (c_count c) && (c_sum c <? two32) && (c_check c <? two32)) (k_iblt (pp_core (du_prod w))) = true ->
  reply_from_store (sync_n w) (pp_pub (du_prod w)) = None ->
  iblt_sub 100 (k_iblt (pp_core (du_prod w))) (k_iblt (pp_core (du_prod w))) = Ok (mkDiff true [] []) ->
  duo_step Kx Kc rule w (wi w).
Proof.
  intros E L Lt Wf Rs D. assert (pp_step Kx (PInterest (sync_n w) 1000) (du_prod w) =
    (pend (sync_n w) (sync_n w) (bf_with b_ex (filter_n (sync_n w))) (k_iblt (pp_core (du_prod w))) 1000 (du_prod w), [], Ok tt)) as Es.
  { apply pend_step; [reflexivity| |exact Rs|exact D|reflexivity]. rewrite E at 1 2. apply request_ex; [reflexivity|reflexivity|apply bf_of; exact L|apply Nat.eqb_eq; exact Lt|].
    apply Forall_forall. intros c Hc. rewrite forallb_forall in Wf. specialize (Wf c Hc).
    apply andb_prop in Wf as [Wf W3]. apply andb_prop in Wf as [W1 W2]. split; [exact W1|]. split; apply N.ltb_lt; assumption. }
  unfold wi, on_prod. cbn [fst snd]. eapply duo_producer; [exact I|exact Es|left; reflexivity].
Qed.
Definition w0 : duo := mkDuo [] (pp_new Kx) [] s_c0 [].
Definition last_data (w : duo) : data := last (du_sent w) (mkData [] Blob [] None 0 []).
Definition hello_n : name := syncp ++ [HELLO].
Definition v4 : duo := Eval vm_compute in wp (PInterest hello_n 1000) (wc [CSendHello] (wp (PAdd pb) (wp (PAdd pa) w0))).
Definition d4 : data := Eval vm_compute in last_data v4.
Definition subs_b : list capi := [CSub pb 0 false; CSendSync].
Definition v5 : duo := Eval vm_compute in wf 0 d4 subs_b [] v4.
Definition v6 : duo := Eval vm_compute in wi v5.
Definition v8 : duo := Eval vm_compute in wp (PPublishName pb (Some 1)) (wp (PPublishName pa (Some 1)) v6).
Definition d8 : data := Eval vm_compute in last_data v8.
Definition v9 : duo := Eval vm_compute in wf 1 d8 [] [] v8.
Definition subs_a : list capi := [CSub pa 0 false; CSendSync].
Definition v10 : duo := Eval vm_compute in wc subs_a v9.
Definition v11 : duo := Eval vm_compute in wi v10.
Definition v12 : duo := Eval vm_compute in wp (PPublishName pa (Some 2)) v11.
Definition d12 : data := Eval vm_compute in last_data v12.
Definition v13 : duo := Eval vm_compute in wf 3 d12 [] [] v12.

Lemma step3 {A} (x : A * outcome unit) : match snd x with Ok _ => true | _ => false end = true -> snd x = Ok tt.
Proof. destruct (snd x) as [[]|e|u|]; intros H; (reflexivity || discriminate). Qed.
Lemma told_all buf (l : list capi) names : state_of_buffer buf = Ok names ->
  forallb (fun a => match a with CSub p v _ => existsb (fun nm => name_eqb nm (append_number p v)) names && (v <? two64) | _ => true end) l = true ->
  forall p v cb, In (CSub p v cb) l -> told_by buf p v.
Proof.
  intros E H p v cb Hin. rewrite forallb_forall in H. specialize (H _ Hin). cbn in H. apply andb_prop in H as [H1 H2].
  apply existsb_exists in H1 as (nm & H1 & H3). apply name_eqb_eq in H3. subst nm. apply N.ltb_lt in H2.
  exists names, (number_comp TYPE_GENERIC v). split; [exact E|]. split; [exact H1|]. apply to_number_number. exact H2.
Qed.
(** the first five steps are those of an application that subscribes in the hello callback *)
Section Runs.
Variable rule : duo -> activity -> Prop.
Hypothesis rule_hello : forall w, rule w (AppCalls [CSendHello]).
Hypothesis rule_subs : forall w, rule w (AppHello (d_content d4) subs_b []).
Hypothesis rule_quiet : forall w, rule w (AppSync []).
Lemma run_v6 : duo_run Kx Kc rule w0 v6.
Proof.
  apply (duo_next _ _ _ _ v5); [apply (duo_next _ _ _ _ v4)|].
  - apply (duo_next _ _ _ _ (wc [CSendHello] (wp (PAdd pb) (wp (PAdd pa) w0)))).
    + apply (duo_next _ _ _ _ (wp (PAdd pb) (wp (PAdd pa) w0))).
      * apply (duo_next _ _ _ _ (wp (PAdd pa) w0)); [apply (duo_next _ _ _ _ w0); [constructor|]|]; apply do_prod; (exact I || apply step3; run).
      * apply do_calls; [apply rule_hello|apply step3; run].
    + replace v4 with (wp (PInterest hello_n 1000) (wc [CSendHello] (wp (PAdd pb) (wp (PAdd pa) w0)))) by run.
      apply do_prod; [exact I|apply step3; run].
  - replace v5 with (wf 0 d4 subs_b [] v4) by run.
    apply (do_fetch rule 0 KHello hello_n); [run|left; run|run|run|run|apply rule_subs|apply step3; run|apply step3; run].
  - replace v6 with (wi v5) by run. apply do_wait; run.
Qed.
Lemma run_v9 : duo_run Kx Kc rule w0 v9.
Proof.
  apply (duo_next _ _ _ _ v8).
  - apply (duo_next _ _ _ _ (wp (PPublishName pa (Some 1)) v6)); [apply (duo_next _ _ _ _ v6); [apply run_v6|]|].
    + apply do_prod; [reflexivity|apply step3; run].
    + replace v8 with (wp (PPublishName pb (Some 1)) (wp (PPublishName pa (Some 1)) v6)) by run. apply do_prod; [reflexivity|apply step3; run].
  - replace v9 with (wf 1 d8 [] [] v8) by run.
    apply (do_fetch rule 1 KSync (sync_n v5)); [run|right; left; run|run|run|run|apply rule_quiet|apply step3; run|apply step3; run].
Qed.
End Runs.
(** ** Its assumptions *)
Definition cores_of (n : nat) (ops : list cop) : list core :=
  flat_map (fun i => match crun (core_new n) (firstn i ops) with Ok k => [k] | _ => [] end) (seq 0 (S (length ops))).
Lemma point_among n ops k : point n ops k -> In k (cores_of n ops).
Proof.
  intros (pre & post & -> & C). apply in_flat_map. exists (length pre). split.
  - apply in_seq. rewrite app_length. lia.
  - rewrite firstn_app, firstn_all, Nat.sub_diag, firstn_O, app_nil_r, C. left. reflexivity.
Qed.
Definition plain_b (K : pcfg) (ops : list cop) (l : list name) : bool :=
  let cs := cores_of (pc_n K) ops in
  let ns := flat_map live cs in
  forallb (fun a => forallb (fun b => name_eqb a b || negb (name_hash a =? name_hash b)) ns) ns &&
  forallb (fun k1 => forallb (fun k2 =>
    let delta := signed_diff (map name_hash (live k1)) (map name_hash (live k2)) in
    no_coincidence_b delta && Nat.ltb (length delta) (pc_fuel K)) cs) cs &&
  explicit ops && Nat.leb (length l) 8 && forallb (fun n => Nat.leb (length (name_wire n)) 100) l.
Lemma plain_check K w l : Forall cop_wf (history (du_evs w)) -> plain_b K (history (du_evs w)) l = true -> Forall wf_name l ->
  (forall p nm, In (CAdd p) (history (du_evs w)) -> In nm (numbers (history (du_evs w)) p) -> In nm l) -> plain K w.
Proof.
  set (ops := history (du_evs w)). intros W H Wl Hl. unfold plain_b in H.
  apply andb_prop in H as [H H5]. apply andb_prop in H as [H H4]. apply andb_prop in H as [H H3]. apply andb_prop in H as [H1 H2].
  rewrite forallb_forall in H1, H2, H5. apply Nat.leb_le in H4.
  assert (hashes_differ (pc_n K) ops) as Hd.
  { intros k1 k2 a b P1 P2 A B E. apply point_among in P1, P2.
    assert (In a (flat_map live (cores_of (pc_n K) ops))) as A' by (apply in_flat_map; eauto).
    assert (In b (flat_map live (cores_of (pc_n K) ops))) as B' by (apply in_flat_map; eauto).
    specialize (H1 a A'). rewrite forallb_forall in H1. specialize (H1 b B'). rewrite E, N.eqb_refl in H1. cbn in H1.
    rewrite orb_false_r in H1. apply name_eqb_eq. exact H1. }
  assert (forall x, NoDup x -> (forall nm, In nm x -> exists p v, nm = append_number p v /\ had (pc_n K) ops p v) ->
    wf_names x /\ (length (encode_names x) <= 1000)%nat) as Sm.
  { intros x Nx Ix. assert (incl x l) as Il.
    { intros nm Hn. destruct (Ix nm Hn) as (p & v & E & Hv). destruct (carried_among (pc_n K) ops nm W H3) as (q & A & B); [exists p, v; auto|].
      eapply Hl; eauto. }
    assert (length x <= 8)%nat as L1 by (etransitivity; [apply NoDup_incl_length; eauto|auto]).
    assert (length (flat_map name_wire x) <= 800)%nat as L2.
    { etransitivity; [apply (sum_flat name_wire 100)|lia]. intros y Hy. apply Nat.leb_le. apply H5. auto. }
    assert (N.of_nat (length (flat_map name_wire x)) < 1000) as L3 by lia.
    split.
    - split; [rewrite Forall_forall in *; auto|]. eapply N.lt_trans; [exact L3|reflexivity].
    - unfold encode_names, tlv. rewrite !app_length.
      assert (forall n, (length (write_var n) <= 9)%nat) as Lv.
      { intros n. unfold write_var. destruct (_ <? _); [simpl; lia|]. destruct (_ <=? _); [cbn [length]; rewrite be_enc_length; lia|].
        destruct (_ <=? _); cbn [length]; rewrite be_enc_length; lia. }
      pose proof (Lv TYPE_PSYNC_CONTENT). pose proof (Lv (N.of_nat (length (flat_map name_wire x)))). lia. }
  constructor; fold ops.
  - exact Hd.
  - intros k1 k2 P1 P2. destruct (point_ibf K ops k1 W Hd P1) as (_ & N1 & _). destruct (point_ibf K ops k2 W Hd P2) as (_ & N2 & _).
    apply point_among in P1, P2. specialize (H2 k1 P1). rewrite forallb_forall in H2. specialize (H2 k2 P2). cbv zeta in H2.
    apply andb_prop in H2 as [H2 H6]. split; [|apply Nat.ltb_lt; exact H6].
    apply no_coincidence_b_ok; [|exact H2]. eapply NoDup_map_inv. apply signed_diff_keys; assumption.
  - intros x Nx Ix. destruct (Sm x Nx Ix) as [A B]. split; [exact A|].
    assert (N.of_nat (length (encode_names x)) <= 1000) as L by lia. eapply N.le_lt_trans; [exact L|reflexivity].
  - right. intros x Nx Ix. destruct (Sm x Nx Ix) as [A B]. etransitivity; [exact B|]. apply Nat.leb_le. run.
Qed.
Definition all_v : list name := [append_number pa 0; append_number pa 1; append_number pa 2; append_number pb 0; append_number pb 1].
Lemma hist_v13 : history (du_evs v13) = [CAdd pa; CAdd pb; CPublish pa (Some 1); CPublish pb (Some 1); CPublish pa (Some 2)].
Proof. run. Qed.
Lemma plain_v13 : plain Kx v13.
Proof.
  apply (plain_check Kx v13 all_v); rewrite ?hist_v13.
  - repeat constructor.
  - run.
  - apply wf_check_ok. run.
  - intros p nm H Hn. assert (In p [pa; pb]) as Hp.
    { destruct H as [H|[H|[H|[H|[H|[]]]]]]; try discriminate; injection H as <-; [left|right; left]; reflexivity. }
    assert (existsb (name_eqb nm) all_v = true) as Q.
    { assert (forallb (fun x => existsb (name_eqb x) all_v) (numbers [CAdd pa; CAdd pb; CPublish pa (Some 1); CPublish pb (Some 1); CPublish pa (Some 2)] p) = true) as Z
        by (destruct Hp as [<-|[<-|[]]]; run).
      rewrite forallb_forall in Z. apply Z. exact Hn. }
    apply existsb_exists in Q as (x & Q1 & Q2). apply name_eqb_eq in Q2. subst. exact Q1.
Qed.
Lemma plain_v10 : plain Kx v10.
Proof. apply (plain_earlier Kx v10 v13 (skipn 6 (du_evs v13))); [run|apply Nat.leb_le; run|apply plain_v13]. Qed.
Lemma plain_v9 : plain Kx v9.
Proof. apply (plain_earlier Kx v9 v13 (skipn 6 (du_evs v13))); [run|apply Nat.leb_le; run|apply plain_v13]. Qed.
Lemma duo_v : duo_ok Kx Kc.
Proof. split; [reflexivity|reflexivity|exact filter_c|exact rate_c|apply lossless_none|left; reflexivity]. Qed.
Lemma fresh_v : fresh_duo Kx Kc w0.
Proof.
  exists s_c0. split; [|reflexivity]. unfold c_new.
  change (bloom_new (cc_libm Kc) (cc_count Kc) (cc_rate Kc)) with (bloom_new libm_example 1 (rate 1)). rewrite b_ex_ok. reflexivity.
Qed.
Definition current_b (w : duo) : bool :=
  match c_iblt (du_cons w) with
  | [c] => (ctype c =? TYPE_GENERIC) && Nat.eqb (length (cval c)) (length (table_bytes (k_iblt (pp_core (du_prod w))))) &&
           forallb (fun x => Byte.eqb (fst x) (snd x)) (combine (cval c) (table_bytes (k_iblt (pp_core (du_prod w)))))
  | _ => false
  end.
Lemma bytes_eq (a b : bytes) : length a = length b -> forallb (fun x => Byte.eqb (fst x) (snd x)) (combine a b) = true -> a = b.
Proof.
  revert b. induction a as [|x a IH]; intros [|y b] L H; try discriminate; auto. cbn in H. apply andb_prop in H as [H1 H2].
  apply Byte.byte_dec_bl in H1. cbn in H1. subst. f_equal. apply IH; auto.
Qed.
Lemma current_check w : current_b w = true -> holds_current_ibf Kx w.
Proof.
  unfold current_b. destruct (c_iblt (du_cons w)) as [|c [|? ?]] eqn:E; try discriminate. intros H.
  apply andb_prop in H as [H H3]. apply andb_prop in H as [H1 H2]. exists c. split; [exact E|]. split; [apply N.eqb_eq; exact H1|].
  apply Nat.eqb_eq in H2. rewrite (bytes_eq _ _ H2 H3). reflexivity.
Qed.
Lemma hello_rules w : subscribes_in_hello w (AppCalls [CSendHello]) /\ subscribes_in_hello w (AppHello (d_content d4) subs_b []) /\
  subscribes_in_hello w (AppSync []).
Proof.
  split; [intros p v cb [H|[]]; discriminate|]. split; [|intros p v cb []].
  split; [|split; [|intros p v cb []]].
  - eapply told_all; run.
  - intros [|a [|b [|c l1]]] p v cb l2 E; try discriminate E.
    injection E as _ _ _ <-. left. left. reflexivity.
Qed.
Lemma any_hello w a : subscribes_in_hello w a -> subscribes_any_time w a.
Proof.
  assert (forall l P, no_subscription l -> resends P l) as R.
  { intros l P N l1 p v cb l2 E. destruct (N p v cb). rewrite E. apply in_or_app. right. left. reflexivity. }
  destruct a as [l|buf sc1 sc2|l]; cbn.
  - intros N. split; [intros p v cb H; destruct (N p v cb H)|apply R; exact N].
  - intros (A & B & N). split; [|split; [exact B|apply R; exact N]]. intros p v cb H. left.
    apply in_app_or in H as [H|H]; [eapply A; eauto|destruct (N p v cb H)].
  - intros N p v cb H. destruct (N p v cb H).
Qed.
Example C64_example :
  duo_ok Kx Kc /\ fresh_duo Kx Kc w0 /\ duo_run Kx Kc subscribes_in_hello w0 v9 /\ no_removal (history (du_evs v9)) /\ plain Kx v9 /\
  holds_current_ibf Kx v9 /\ is_subscribed pb (du_cons v9) = true /\ seq_of pb (du_cons v9) = Some 1 /\
  is_subscribed pa (du_cons v9) = false /\ current v9 pa = Some 1.
Proof.
  split; [exact duo_v|]. split; [exact fresh_v|]. split; [apply run_v9; intros w; apply hello_rules|].
  split. { replace (history (du_evs v9)) with [CAdd pa; CAdd pb; CPublish pa (Some 1); CPublish pb (Some 1)] by run.
           intros p [H|[H|[H|[H|[]]]]]; discriminate. }
  split; [exact plain_v9|]. split; [apply current_check; run|]. split; [run|]. split; [run|]. split; run.
Qed.

(** ** Counterexamples *)
(** a consumer that waits for updates of one prefix asks for hello data again and subscribes to the
    second prefix in the callback.  The outstanding sync interest still has the old filter; its answer
    brings an IBF that covers an update of the second prefix, but not the update. *)
Definition x7 : duo := Eval vm_compute in wp (PInterest hello_n 1000) (wc [CSendHello] v6).
Definition x8 : duo := Eval vm_compute in wf 2 d4 [CSub pa 0 false] [] x7.
Definition x10 : duo := Eval vm_compute in wp (PPublishName pb (Some 1)) (wp (PPublishName pa (Some 1)) x8).
Definition x11 : duo := Eval vm_compute in wf 1 (last_data x10) [] [] x10.
Lemma only_rules w : subscribes_only_in_hello w (AppCalls [CSendHello]) /\ subscribes_only_in_hello w (AppHello (d_content d4) subs_b []) /\
  subscribes_only_in_hello w (AppSync []).
Proof. destruct (hello_rules w) as (A & (B1 & _ & B2) & C). cbn. auto. Qed.
Lemma run_x11 : duo_run Kx Kc subscribes_only_in_hello w0 x11.
Proof.
  apply (duo_next _ _ _ _ x10); [apply (duo_next _ _ _ _ (wp (PPublishName pa (Some 1)) x8)); [apply (duo_next _ _ _ _ x8); [apply (duo_next _ _ _ _ x7);
    [apply (duo_next _ _ _ _ (wc [CSendHello] v6)); [apply (duo_next _ _ _ _ v6)|]|]|]|]|].
  - apply run_v6; intros w; apply only_rules.
  - apply do_calls; [apply only_rules|apply step3; run].
  - replace x7 with (wp (PInterest hello_n 1000) (wc [CSendHello] v6)) by run. apply do_prod; [exact I|apply step3; run].
  - replace x8 with (wf 2 d4 [CSub pa 0 false] [] x7) by run.
    apply (do_fetch _ 2 KHello hello_n); [run|left; run|run|run|run| |apply step3; run|apply step3; run].
    split; [|intros p v cb []]. eapply told_all; run.
  - apply do_prod; [reflexivity|apply step3; run].
  - replace x10 with (wp (PPublishName pb (Some 1)) (wp (PPublishName pa (Some 1)) x8)) by run. apply do_prod; [reflexivity|apply step3; run].
  - replace x11 with (wf 1 (last_data x10) [] [] x10) by run.
    apply (do_fetch _ 1 KSync (sync_n v5)); [run|right; right; left; run|run|run|run|apply only_rules|apply step3; run|apply step3; run].
Qed.
Lemma plain_x11 : plain Kx x11.
Proof.
  destruct plain_v10 as [A B C D]. replace (history (du_evs v10)) with (history (du_evs x11)) in * by run. constructor; auto.
Qed.
Theorem C64_current_numbers_refuted : exists K Kc w0 w p,
  duo_ok K Kc /\ fresh_duo K Kc w0 /\ duo_run K Kc subscribes_only_in_hello w0 w /\ no_removal (history (du_evs w)) /\ plain K w /\
  holds_current_ibf K w /\ is_subscribed p (du_cons w) = true /\ seq_of p (du_cons w) = Some 0 /\ current w p = Some 1.
Proof.
  exists Kx, Kc, w0, x11, pa. split; [exact duo_v|]. split; [exact fresh_v|]. split; [exact run_x11|].
  split. { replace (history (du_evs x11)) with [CAdd pa; CAdd pb; CPublish pa (Some 1); CPublish pb (Some 1)] by run.
           intros p [H|[H|[H|[H|[]]]]]; discriminate. }
  split; [exact plain_x11|]. split; [apply current_check; run|]. split; [run|]. split; run.
Qed.
Print Assumptions C64_current_numbers_refuted.

(** the producer removes a prefix and adds it again: the consumer keeps the old number *)
Definition y3 : duo := Eval vm_compute in wp (PInterest hello_n 1000) (wc [CSendHello] (wp (PPublishName pa (Some 7)) (wp (PAdd pa) w0))).
Definition y4 : duo := Eval vm_compute in wf 0 (last_data y3) [CSub pa 7 false] [] y3.
Definition y6 : duo := Eval vm_compute in wp (PAdd pa) (wp (PRemove pa) y4).
Lemma run_y6 : duo_run Kx Kc subscribes_in_hello w0 y6.
Proof.
  apply (duo_next _ _ _ _ (wp (PRemove pa) y4)); [apply (duo_next _ _ _ _ y4); [apply (duo_next _ _ _ _ y3);
    [apply (duo_next _ _ _ _ (wc [CSendHello] (wp (PPublishName pa (Some 7)) (wp (PAdd pa) w0))));
      [apply (duo_next _ _ _ _ (wp (PPublishName pa (Some 7)) (wp (PAdd pa) w0)));
        [apply (duo_next _ _ _ _ (wp (PAdd pa) w0)); [apply (duo_next _ _ _ _ w0); [constructor|]|]|]|]|]|]|].
  - apply do_prod; [exact I|apply step3; run].
  - apply do_prod; [reflexivity|apply step3; run].
  - apply do_calls; [apply hello_rules|apply step3; run].
  - replace y3 with (wp (PInterest hello_n 1000) (wc [CSendHello] (wp (PPublishName pa (Some 7)) (wp (PAdd pa) w0)))) by run.
    apply do_prod; [exact I|apply step3; run].
  - replace y4 with (wf 0 (last_data y3) [CSub pa 7 false] [] y3) by run.
    apply (do_fetch _ 0 KHello hello_n); [run|left; run|run|run|run| |apply step3; run|apply step3; run].
    split; [|split; [|intros p v cb []]]; [eapply told_all; run|].
    intros [|a [|b l1]] p v cb l2 E; [|discriminate E|discriminate E]. right. right. split; [|intros []].
    intros (i & n & H). assert (existsb (fun x => match fst (snd x) with KSync => true | _ => false end) (c_live (du_cons y3)) = true) as Q
      by (apply existsb_exists; exists (i, (KSync, n)); auto). vm_compute in Q. discriminate.
  - apply do_prod; [exact I|apply step3; run].
  - replace y6 with (wp (PAdd pa) (wp (PRemove pa) y4)) by run. apply do_prod; [exact I|apply step3; run].
Qed.
Lemma hist_y6 : history (du_evs y6) = [CAdd pa; CPublish pa (Some 7); CRemove pa; CAdd pa].
Proof. run. Qed.
Theorem C64_never_ahead_refuted : exists K Kc w0 w p,
  duo_ok K Kc /\ fresh_duo K Kc w0 /\ duo_run K Kc subscribes_in_hello w0 w /\ plain K w /\
  is_subscribed p (du_cons w) = true /\ seq_of p (du_cons w) = Some 7 /\ current w p = Some 0.
Proof.
  exists Kx, Kc, w0, y6, pa. split; [exact duo_v|]. split; [exact fresh_v|]. split; [exact run_y6|]. split; [|split; [run|split; run]].
  apply (plain_check Kx y6 [append_number pa 0; append_number pa 7]); rewrite ?hist_y6.
  - repeat constructor.
  - run.
  - apply wf_check_ok. run.
  - intros p nm H Hn. assert (p = pa) as -> by (destruct H as [H|[H|[H|[H|[]]]]]; try discriminate; injection H as <-; reflexivity).
    assert (forallb (fun x => existsb (name_eqb x) [append_number pa 0; append_number pa 7]) (numbers [CAdd pa; CPublish pa (Some 7); CRemove pa; CAdd pa] pa) = true) as Z by run.
    rewrite forallb_forall in Z. specialize (Z _ Hn). apply existsb_exists in Z as (x & Q1 & Q2). apply name_eqb_eq in Q2. subst. exact Q1.
Qed.
Print Assumptions C64_never_ahead_refuted.

(** both prefixes are in the hello data; the application subscribes to the second one later, after
    sync data has brought an IBF that covers an update of it *)
Lemma told_v9 : told_before v9 pa 0.
Proof. eexists. split; [right; left; run|run]. Qed.
Lemma any_rules w : subscribes_any_time w (AppCalls [CSendHello]) /\ subscribes_any_time w (AppHello (d_content d4) subs_b []) /\
  subscribes_any_time w (AppSync []).
Proof. destruct (hello_rules w) as (A & B & C). split; [|split]; apply any_hello; assumption. Qed.
Lemma run_v10 : duo_run Kx Kc subscribes_any_time w0 v10.
Proof.
  apply (duo_next _ _ _ _ v9); [apply run_v9; intros w; apply any_rules|]. replace v10 with (wc subs_a v9) by run.
  apply do_calls; [|apply step3; run]. split.
  - intros p v cb [H|[H|[]]]; [|discriminate]. injection H as <- <- _. exact told_v9.
  - intros [|a [|b [|c l1]]] p v cb l2 E; try discriminate E.
    injection E as _ _ _ <-. left. left. reflexivity.
Qed.
Theorem C65_late_subscription_refuted : exists K Kc w0 w p,
  duo_ok K Kc /\ fresh_duo K Kc w0 /\ duo_run K Kc subscribes_any_time w0 w /\ no_removal (history (du_evs w)) /\ plain K w /\
  holds_current_ibf K w /\ is_subscribed p (du_cons w) = true /\ seq_of p (du_cons w) = Some 0 /\ current w p = Some 1.
Proof.
  exists Kx, Kc, w0, v10, pa. split; [exact duo_v|]. split; [exact fresh_v|]. split; [exact run_v10|].
  split. { replace (history (du_evs v10)) with [CAdd pa; CAdd pb; CPublish pa (Some 1); CPublish pb (Some 1)] by run.
           intros p [H|[H|[H|[H|[]]]]]; discriminate. }
  split; [exact plain_v10|]. split; [apply current_check; run|]. split; [run|]. split; run.
Qed.
Print Assumptions C65_late_subscription_refuted.
(** the next update arrives *)
Example C65_example :
  duo_ok Kx Kc /\ fresh_duo Kx Kc w0 /\ duo_run Kx Kc subscribes_any_time w0 v10 /\ is_subscribed pa (du_cons v10) = true /\
  duo_run Kx Kc (SpecPair.keeps pa subscribes_any_time) v10 v13 /\ no_removal (history (du_evs v13)) /\ plain Kx v13 /\
  holds_current_ibf Kx v13 /\ current v10 pa <> current v13 pa /\ seq_of pa (du_cons v10) = Some 0 /\ seq_of pa (du_cons v13) = Some 2.
Proof.
  split; [exact duo_v|]. split; [exact fresh_v|]. split; [exact run_v10|]. split; [run|]. split.
  { apply (duo_next _ _ _ _ v12); [apply (duo_next _ _ _ _ v11); [apply (duo_next _ _ _ _ v10); [constructor|]|]|].
    - replace v11 with (wi v10) by run. apply do_wait; run.
    - replace v12 with (wp (PPublishName pa (Some 2)) v11) by run. apply do_prod; [reflexivity|apply step3; run].
    - replace v13 with (wf 3 d12 [] [] v12) by run.
      apply (do_fetch _ 3 KSync (sync_n v10)); [run|right; right; left; run|run|run|run|split; [apply any_rules|intros []]|apply step3; run|apply step3; run]. }
  split. { rewrite hist_v13. intros p [H|[H|[H|[H|[H|[]]]]]]; discriminate. }
  split; [exact plain_v13|]. split; [apply current_check; run|]. split; [vm_compute; discriminate|]. split; run.
Qed.
