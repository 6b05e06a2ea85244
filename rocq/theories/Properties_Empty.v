(** C46: exactly when a reported range is empty; C122: the old constructors for every count. *)
From Coq Require Import List NArith ZArith Bool Arith Lia Sorted.
From Coq.Strings Require Import Byte.
From Verif Require Import Base BaseFacts Mon MonFacts Iblt Tlv TlvFacts State StateFacts NMap NMapFacts Codec
  Bloom SpecBloom BloomFacts Properties_Bloom Store Producer SpecProducer ProducerFacts Properties_Producer Partial PartialFacts PartialSteps
  Properties_Partial Full FullTrace SpecFull FullFacts FullSafe FullSteps FullData FullRuns Properties_Full Consumer SpecConsumer ConsumerFacts Properties_Consumer
  SpecExchange ExchangeFacts SpecGroup GroupFacts Options Properties_Exact Throwing SpecThrow ThrowFacts SpecOrder OrderFacts Properties_Options Properties_Lost.
Import ListNotations.
Local Open Scope N_scope.

(** the first name of the list that is about [p] ends in 0 *)
Definition first_is_zero (p : name) (names : list name) : Prop :=
  exists a x b, names = a ++ @cons name (p ++ [x]) b /\ to_number x = Ok 0 /\ forall y, ~ In (p ++ [y]) a.

Lemma first_zero_same p x v r : to_number x = Ok v -> (first_is_zero p (@cons name (p ++ [x]) r) <-> v = 0).
Proof.
  intros E. split.
  - intros ([|c a] & y & b & Eq & Ey & No); cbn in Eq; injection Eq as Eq _.
    + apply app_inj_tail in Eq as [_ <-]. rewrite E in Ey. injection Ey as ->. reflexivity.
    + exfalso. apply (No x). left. auto.
  - intros ->. exists [], x, r. split; [reflexivity|]. split; [exact E|]. intros y [].
Qed.
Lemma first_zero_other p q x r : q <> p -> (first_is_zero p (@cons name (q ++ [x]) r) <-> first_is_zero p r).
Proof.
  intros Nq. split.
  - intros ([|c a] & y & b & Eq & Ey & No); cbn in Eq; injection Eq as Eq Er.
    + apply app_inj_tail in Eq as [Eq _]. contradiction.
    + exists a, y, b. split; [exact Er|]. split; [exact Ey|]. intros z Hz. apply (No z). right. exact Hz.
  - intros (a & y & b & -> & Ey & No). exists ((q ++ [x]) :: a), y, b. split; [reflexivity|]. split; [exact Ey|].
    intros z [Hz|Hz]; [apply app_inj_tail in Hz as [Hz _]; contradiction|exact (No z Hz)].
Qed.
Definition empty_for (p : name) (l : list missing) : Prop := exists m, In m l /\ mi_prefix m = p /\ mi_high m < mi_low m.
Lemma empty_cons p m l : empty_for p (m :: l) <-> (mi_prefix m = p /\ mi_high m < mi_low m) \/ empty_for p l.
Proof.
  split.
  - intros (m' & [<-|H] & A & B); [left; auto|right; exists m'; auto].
  - intros [[A B]|(m' & H & A & B)]; [exists m; split; [left; reflexivity|auto]|exists m'; split; [right; exact H|auto]].
Qed.
(** one name of the list, whatever the program *)
Lemma empty_step p q x v (k0 k1 : option N) (kq : option N) r l face :
  to_number x = Ok v -> (kq = None \/ exists c, kq = Some c /\ c < v) ->
  (q = p -> k0 = kq) -> k1 = (if name_eqb p q then Some v else k0) ->
  (empty_for p l <-> k1 = None /\ first_is_zero p r) ->
  (empty_for p (mkMissing q (w64 (seq0 kq + 1)) v face :: l) <-> k0 = None /\ first_is_zero p (@cons name (q ++ [x]) r)).
Proof.
  intros Ev C K0 K1 IH. rewrite empty_cons, IH, K1. cbn [mi_prefix mi_high mi_low]. apply to_number_lt in Ev as Lv.
  destruct (name_eqb p q) eqn:E.
  - apply name_eqb_eq in E. subst q. rewrite (first_zero_same p x v r Ev), (K0 eq_refl).
    assert (seq0 kq + 1 < two64 /\ (v < seq0 kq + 1 <-> kq = None /\ v = 0)) as [B X].
    { destruct C as [->|(c & -> & L)]; cbn; [split; [reflexivity|split; [split; [reflexivity|lia]|lia]]|].
      split; [lia|]. split; [lia|intros [Y _]; discriminate]. }
    unfold w64. rewrite N.mod_small by exact B. split.
    + intros [[_ Y]|[Y _]]; [apply X; exact Y|discriminate].
    + intros Y. left. split; [reflexivity|apply X; exact Y].
  - apply name_eqb_neq in E. rewrite (first_zero_other p q x r) by congruence. split; [intros [[Y _]|Y]; [congruence|exact Y]|right; assumption].
Qed.
Lemma skip_step p q x (k0 : option N) (kq : option N) r l c :
  kq = Some c -> (q = p -> k0 = kq) ->
  (empty_for p l <-> k0 = None /\ first_is_zero p r) ->
  (empty_for p l <-> k0 = None /\ first_is_zero p (@cons name (q ++ [x]) r)).
Proof.
  intros E K0 IH. rewrite IH. destruct (name_eqb q p) eqn:Q.
  - apply name_eqb_eq in Q. specialize (K0 Q). split; intros [Y _]; congruence.
  - apply name_eqb_neq in Q. rewrite (first_zero_other p q x r) by exact Q. reflexivity.
Qed.

Lemma take_sync_empty p names : forall s l, res (take_sync names s) = Ok l ->
  (empty_for p l <-> known s p = None /\ first_is_zero p names).
Proof.
  induction names as [|c names IH]; intros s l H.
  - injection H as <-. split; [intros (m & [] & _)|intros [_ ([|] & x & b & E & _)]; discriminate].
  - assert (exists q x v, c = q ++ [x] /\ to_number x = Ok v) as (q & x & v & -> & Ev).
    { cbn [take_sync] in H. rewrite mbind_lift in H. destruct (name_get_minus c 1) as [x|e|u|] eqn:E; try discriminate.
      rewrite mbind_lift in H. destruct (to_number x) as [v|e|u|] eqn:Ev; try discriminate. apply name_split in E. eauto. }
    rewrite (take_sync_head q x v names s Ev) in H.
    destruct (match nm_find q (c_prefixes s) with None => true | Some cur => cur <? v end) eqn:C.
    + rewrite mbind_mod in H. set (s1 := cset_prefixes _ s) in H. unfold mbind in H.
      destruct (take_sync names s1) as [[s2 o2] [l2|e|u|]] eqn:T; try discriminate. injection H as <-.
      change (match nm_find q (c_prefixes s) with Some x => x | None => 0 end) with (seq0 (known s q)).
      apply (empty_step p q x v (known s p) (known s1 p)); [exact Ev| | |subst s1; apply known_set|apply IH; rewrite T; reflexivity].
      * unfold known. destruct (nm_find q (c_prefixes s)) as [cur|]; [right|left; reflexivity]. apply N.ltb_lt in C. eauto.
      * intros ->. reflexivity.
    + destruct (nm_find q (c_prefixes s)) as [cur|] eqn:F; [|discriminate].
      apply (skip_step p q x _ (known s q) _ _ cur); [exact F|intros ->; reflexivity|apply IH; exact H].
Qed.
Lemma take_updates_empty p names : forall s s' o l, pfx_ok (k_prefixes (f_core s)) -> take_updates names s = (s', o, Ok l) ->
  (empty_for p l <-> get_seq p (f_core s) = None /\ first_is_zero p names).
Proof.
  induction names as [|c names IH]; intros s s' o l Hp; cbn [take_updates].
  - intros [= <- <- <-]. split; [intros (m & [] & _)|intros [_ ([|] & x & b & E & _)]; discriminate].
  - rewrite mbind_lift. destruct (name_get_minus c 1) as [x|e|u|] eqn:Ex; try discriminate.
    rewrite mbind_lift. destruct (to_number x) as [v|e|u|] eqn:Ev; try discriminate. cbv zeta. rewrite mbind_get.
    pose proof (last_split c x Ex) as Hc. set (q := name_prefix_back c 1) in *. clearbody q. subst c.
    destruct (match get_seq _ _ with None => true | Some cur => cur <? v end) eqn:C.
    + unfold mbind. destruct (prefix_seq q s) as [[s1 o1] [cur|e|u|]] eqn:E1; try discriminate.
      destruct (fp_op _ s1) as [[s2 o2] [[]|e|u|]] eqn:E2; try discriminate.
      destruct (take_updates names s2) as [[s3 o3] [l3|e|u|]] eqn:T; try discriminate.
      intros [= <- <- <-].
      assert (cur = seq0 (get_seq q (f_core s)) /\ pfx_ok (k_prefixes (f_core s1)) /\
        forall p, get_seq p (f_core s1) = if name_eqb p q then Some cur else get_seq p (f_core s)) as (-> & P1 & G1).
      { apply prefix_seq_inv in E1 as [(w & Ew & -> & _ & [= ->])|(En & _ & [= ->] & ->)].
        - rewrite Ew. split; [reflexivity|]. split; [exact Hp|]. intros p'. destruct (name_eqb p' q) eqn:E; [|reflexivity].
          apply name_eqb_eq in E. subst p'. exact Ew.
        - rewrite En. split; [reflexivity|]. cbn [f_core fset_core].
          assert (cstep (f_core s) (CAdd q) = Ok (fst (core_add q (f_core s)))) as Es by reflexivity. split.
          + eapply cstep_pfx; [exact Hp| |exact Es]. exact I.
          + intros p'. rewrite (get_seq_step p' _ _ _ Hp Es). cbn [seq_step]. destruct (name_eqb p' q) eqn:E; [|reflexivity].
            apply name_eqb_eq in E. subst p'. rewrite En. reflexivity. }
      apply fp_op_inv in E2 as [(k & _ & Ek & -> & _)|(_ & _ & Nr)]; [|congruence].
      apply to_number_lt in Ev as Lv.
      assert (pfx_ok (k_prefixes k)) as P2 by (eapply cstep_pfx; [exact P1| |exact Ek]; exact Lv).
      apply (empty_step p q x v (get_seq p (f_core s)) (get_seq p k) (get_seq q (f_core s)) names l3 (f_incoming s) Ev).
      * destruct (get_seq q (f_core s)) as [cur|]; [right|left; reflexivity]. apply N.ltb_lt in C. eauto.
      * intros ->. reflexivity.
      * rewrite (get_seq_step p _ _ _ P1 Ek). cbn [seq_step]. rewrite G1. destruct (name_eqb p q) eqn:E; [|reflexivity].
        cbn [option_map]. f_equal. destruct (get_seq q (f_core s)) as [cur|]; cbn; [apply N.ltb_lt in C|]; lia.
      * exact (IH (fset_core k s1) s3 o3 l3 P2 T).
    + intros T. destruct (get_seq q (f_core s)) as [cur|] eqn:F; [|discriminate].
      apply (skip_step p q x _ (get_seq q (f_core s)) _ _ cur); [exact F|intros ->; reflexivity|exact (IH s s' o l Hp T)].
Qed.

(** * C46 *)
(** a reported range of [p] is empty exactly if [p] was not known and the first name about [p] ends in 0 *)
Theorem C46_consumer_empty_exactly_when : forall K evs s o i n buf names l p,
  creaches K evs s o -> cfetch i (c_live s) = Some (KSync, n) -> is_nack (c_type s) = false ->
  state_of_buffer buf = Ok names -> In (CoUpdate l) (outs (c_step K (CeContent i buf [] []) s)) ->
  ((exists m, In m l /\ mi_prefix m = p /\ mi_high m < mi_low m) <-> seq_of p s = None /\ first_is_zero p names).
Proof.
  intros K evs s o i n buf names l p _ Hf Hn Hb Hl. cbn [c_step] in Hl. rewrite mbind_get, Hf in Hl.
  unfold finish in Hl. rewrite mbind_mod, Hn in Hl. unfold on_csync_data in Hl. rewrite mbind_mod, mbind_lift, Hb in Hl.
  set (s1 := cset_iblt _ _) in Hl. change (seq_of p s) with (known s1 p). clearbody s1.
  assert (forall s2 l, ~ In (CoUpdate l) (outs (send_sync K s2))) as SS.
  { intros s2 l0. rewrite send_sync_eq. destruct (c_iblt s2); [intros []|].
    destruct (append_bloom _ _); cbn [st outs fst snd]; try (intros []; fail). intros [X|[]]. discriminate. }
  pose proof (take_sync_empty p names s1) as H. destruct (take_sync_inv names s1) as (T1 & _).
  unfold mbind at 1, outs in Hl. destruct (take_sync names s1) as [[s2 o2] r2] eqn:Et. cbn [outs res fst snd] in *. subst o2.
  destruct r2 as [l2|e|u|]; try contradiction. specialize (H l2 eq_refl). cbn [app] in Hl.
  destruct l2 as [|m2 l2].
  - exfalso. rewrite mbind_ret in Hl. apply (SS s2 l). unfold outs. destruct (send_sync K s2) as [[s3 o3] r3]. exact Hl.
  - unfold memit at 1, calls, mret, mbind in Hl. pose proof (SS s2 l) as X. unfold outs in X. destruct (send_sync K s2) as [[s3 o3] r3].
    cbn in Hl, X. destruct Hl as [[= <-]|Hl]; [|contradiction]. exact H.
Qed.
Print Assumptions C46_consumer_empty_exactly_when.
Theorem C46_empty_exactly_when : forall K sys evs s o i buf script names l p,
  reaches K sys evs s o -> content_names K buf names -> In (FoUpdate l) (outs (fp_step K (FeContent i buf script) s)) ->
  ((exists m, In m l /\ mi_prefix m = p /\ mi_high m < mi_low m) <-> get_seq p (f_core s) = None /\ first_is_zero p names).
Proof.
  intros K sys evs s o i buf script names l p R Hc Hl. pose proof (reaches_pfx _ _ _ _ _ R) as Hp. clear R.
  unfold outs in Hl. destruct (fp_step K (FeContent i buf script) s) as [[s' o'] r] eqn:E. cbn [fst snd] in Hl.
  cbn [fp_step] in E. rewrite mbind_get in E.
  destruct (fetch_of i (f_live s)) as [n|]; [|injection E as <- <- <-; contradiction].
  rewrite mbind_mod in E. set (s0 := fset_live _ s) in *.
  unfold on_sync_data, delete_pending in E. rewrite mbind_mod in E. set (s1 := fset_pending _ s0) in *.
  unfold content_names in Hc. rewrite Hc in E. change (f_core s) with (f_core s1) in *. clearbody s1. clear s0.
  unfold mbind at 1 in E. destruct (take_updates names s1) as [[s2 o2] r2] eqn:T.
  destruct (take_inv names s1 s2 o2 r2 Hp T) as (F & O & P & _).
  assert (~ In (FoUpdate l) o2) as No.
  { intros X. apply only_ops_nr in O. unfold no_report in O. rewrite Forall_forall in O. exact (O _ X l eq_refl). }
  destruct r2 as [l2|e|u|]; try (injection E as <- <- <-; contradiction).
  assert (l = l2) as ->; [|eapply take_updates_empty; [exact Hp|exact T]]. destruct l2 as [|m2 l2].
  - exfalso. unfold draw in E. rewrite mbind_mod, mbind_assoc, mbind_get, mbind_assoc, mbind_mod, mbind_ret in E.
    unfold mmod in E. injection E as <- <- <-. rewrite app_nil_r in Hl. contradiction.
  - rewrite mbind_emit in E.
    set (rest := (api_calls K script ;; mlet j <- draw K;
        mmod (fun s => fset_wait false (fset_sched (Some (f_now s + j, KSend)) s)) ;; process_waiting K)) in *.
    injection E as <- <- <-.
    assert (no_report (outs (rest s2))) as Nr
      by (apply (tr_after K (fun _ => True) nr_rel (nr_closed K _)); [intros; exact I|apply Forall_forall; intros; exact I]).
    apply in_app_iff in Hl as [Hl|[Hl|Hl]]; [contradiction|congruence|].
    unfold no_report in Nr. rewrite Forall_forall in Nr. destruct (Nr _ Hl l eq_refl).
Qed.
Print Assumptions C46_empty_exactly_when.

(** both sides of the equivalences occur: [pa] is new and its first name ends in 0; the first name about [pb] does not *)
Definition zero_first : list name := [append_number pa 0; append_number pb 7; append_number pb 0; append_number pa 2].
Definition buf_46z : bytes := Eval vm_compute in encode_names zero_first.
Definition zero_content : bytes := Eval vm_compute in match compress (fc_codec Kf) (fc_cscheme Kf) (encode_names zero_first) with Ok b => b | _ => [] end.
Lemma zero_first_pa : first_is_zero pa zero_first.
Proof. exists [], (number_comp TYPE_GENERIC 0), [append_number pb 7; append_number pb 0; append_number pa 2]. split; [reflexivity|]. split; [vm_compute; reflexivity|]. intros y []. Qed.
Example C46_consumer_empty_example : exists n l, creaches Kc evs_c5 s_c5 o_c5 /\
  cfetch 1 (c_live s_c5) = Some (KSync, n) /\ is_nack (c_type s_c5) = false /\ state_of_buffer buf_46z = Ok zero_first /\
  In (CoUpdate l) (outs (c_step Kc (CeContent 1 buf_46z [] []) s_c5)) /\
  l = [mkMissing pa 1 0 0; mkMissing pb 6 7 0; mkMissing pa 1 2 0] /\
  seq_of pa s_c5 = None /\ first_is_zero pa zero_first /\ seq_of pb s_c5 = Some 5 /\ ~ first_is_zero pb zero_first.
Proof.
  eexists _, _. split; [exact reach_c5|]. split; [vm_compute; reflexivity|]. split; [reflexivity|]. split; [vm_compute; reflexivity|].
  split; [vm_compute; left; reflexivity|]. split; [reflexivity|]. split; [reflexivity|]. split; [exact zero_first_pa|]. split; [reflexivity|].
  unfold zero_first. change (append_number pa 0) with (pa ++ [number_comp TYPE_GENERIC 0]). rewrite first_zero_other by discriminate.
  change (append_number pb 7) with (pb ++ [number_comp TYPE_GENERIC 7]). rewrite (first_zero_same pb _ 7) by (vm_compute; reflexivity). discriminate.
Qed.

Example C46_empty_example : exists l, reaches Kf 0 [] s_44f o_44f /\ content_names Kf zero_content zero_first /\
  In (FoUpdate l) (outs (fp_step Kf (FeContent 0 zero_content []) s_44f)) /\
  l = [mkMissing pa 1 0 0; mkMissing pb 1 7 0; mkMissing pa 1 2 0] /\
  get_seq pa (f_core s_44f) = None /\ first_is_zero pa zero_first /\ get_seq pb (f_core s_44f) = None /\ ~ first_is_zero pb zero_first.
Proof.
  eexists. split; [split; [constructor|vm_compute; reflexivity]|]. split; [vm_compute; reflexivity|].
  split; [vm_compute; do 5 right; left; reflexivity|]. split; [reflexivity|]. split; [reflexivity|]. split; [exact zero_first_pa|]. split; [reflexivity|].
  unfold zero_first. change (append_number pa 0) with (pa ++ [number_comp TYPE_GENERIC 0]). rewrite first_zero_other by discriminate.
  change (append_number pb 7) with (pb ++ [number_comp TYPE_GENERIC 7]). rewrite (first_zero_same pb _ 7) by (vm_compute; reflexivity). discriminate.
Qed.

(** * C122 *)
(** a node built with an old constructor is, for every count, the one built with the options whose count is the
    remainder of the count modulo 2^32, and to which the user prefix was then added *)
Theorem C122_producer_old_exactly : forall w count sync user hello_fresh sync_fresh sch evs,
  let new := producer_with w sync {| po_ibf_count := count mod 2 ^ 32; po_ibf_compression := sch;
                                     po_hello_fresh := hello_fresh; po_sync_fresh := sync_fresh |} in
  let old := producer_old w count sync user hello_fresh sync_fresh sch in
  fst old = fst new /\ pp_run (fst old) (snd old) evs = pp_run (fst new) (snd new) (PAdd user :: evs).
Proof.
  intros w count sync user hf sf sch evs. cbv zeta.
  assert (count mod 2 ^ 32 < 2 ^ 32) as L by (apply N.mod_lt; discriminate).
  replace (producer_old w count sync user hf sf sch) with (producer_old w (count mod 2 ^ 32) sync user hf sf sch);
    [exact (C122_producer_partial w _ sync user hf sf sch evs L)|]. unfold producer_old, w32. rewrite N.mod_mod by discriminate. reflexivity.
Qed.
Print Assumptions C122_producer_old_exactly.
Theorem C122_node_old_exactly : forall w count sync user life fresh sch csch sys evs,
  let new := node_with w sync {| fo_ibf_count := count mod 2 ^ 32; fo_ibf_compression := sch; fo_interest_life := life;
                                 fo_data_fresh := fresh; fo_content_compression := csch |} sys in
  let old := node_old w count sync user life fresh sch csch sys in
  fst old = fst new /\ node_run old evs = node_run new (FeApi (AAdd user) :: evs).
Proof.
  intros w count sync user life fresh sch csch sys evs. cbv zeta.
  assert (count mod 2 ^ 32 < 2 ^ 32) as L by (apply N.mod_lt; discriminate).
  replace (node_old w count sync user life fresh sch csch sys) with (node_old w (count mod 2 ^ 32) sync user life fresh sch csch sys);
    [exact (C122_node_partial w _ sync user life fresh sch csch sys evs L)|]. unfold node_old, w32. rewrite N.mod_mod by discriminate. reflexivity.
Qed.
Print Assumptions C122_node_old_exactly.
