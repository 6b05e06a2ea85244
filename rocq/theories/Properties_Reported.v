(** C44, C88: exactly which prefixes a reply makes the application hear of. *)
From Coq Require Import List NArith ZArith Bool Arith Lia Sorted.
From Coq.Strings Require Import Byte.
From Verif Require Import Base BaseFacts Mon MonFacts Iblt Tlv TlvFacts State StateFacts NMap NMapFacts Codec
  Bloom SpecBloom BloomFacts Properties_Bloom Store Producer SpecProducer ProducerFacts Properties_Producer Partial PartialFacts PartialSteps
  Properties_Partial Full FullTrace SpecFull FullFacts FullSafe FullSteps FullData FullRuns Properties_Full Consumer SpecConsumer ConsumerFacts Properties_Consumer
  SpecExchange ExchangeFacts SpecGroup GroupFacts Properties_Exact Throwing SpecThrow ThrowFacts SpecOrder OrderFacts Properties_Lost Properties_Empty.
Import ListNotations.
Local Open Scope N_scope.

(** a name of the list gives [p] a number, and [p] was not known ([k] is [None]) or had a lower one *)
Definition news_about (p : name) (k : option N) (names : list name) : Prop :=
  exists x v, In (p ++ [x]) names /\ to_number x = Ok v /\ (k = None \/ exists cur, k = Some cur /\ cur < v).
Definition hears_of (p : name) (l : list missing) : Prop := exists m, In m l /\ mi_prefix m = p.

Lemma hears_cons p m l : hears_of p (m :: l) <-> mi_prefix m = p \/ hears_of p l.
Proof.
  split.
  - intros (m' & [<-|H] & A); [left; auto|right; exists m'; auto].
  - intros [A|(m' & H & A)]; [exists m; split; [left; reflexivity|auto]|exists m'; split; [right; exact H|auto]].
Qed.
Lemma news_cons p q x v k r : to_number x = Ok v ->
  (news_about p k (@cons name (q ++ [x]) r) <->
   (q = p /\ (k = None \/ exists cur, k = Some cur /\ cur < v)) \/ news_about p k r).
Proof.
  intros Ev. split.
  - intros (y & w & [E|H] & Ew & N).
    + apply app_inj_tail in E as [-> ->]. rewrite Ev in Ew. injection Ew as <-. left. auto.
    + right. exists y, w. auto.
  - intros [[-> N]|(y & w & H & Ew & N)].
    + exists x, v. split; [left; reflexivity|]. auto.
    + exists y, w. split; [right; exact H|]. auto.
Qed.
Lemma news_taken p q x v (k0 k1 kq : option N) r l low face :
  to_number x = Ok v -> (kq = None \/ exists c, kq = Some c /\ c < v) -> (q = p -> k0 = kq) ->
  k1 = (if name_eqb p q then Some v else k0) -> (hears_of p l <-> news_about p k1 r) ->
  (hears_of p (mkMissing q low v face :: l) <-> news_about p k0 (@cons name (q ++ [x]) r)).
Proof.
  intros Ev C K0 K1 IH. rewrite hears_cons, (news_cons p q x v k0 r Ev), IH, K1. cbn [mi_prefix].
  destruct (name_eqb p q) eqn:E.
  - apply name_eqb_eq in E. subst q. rewrite (K0 eq_refl). split; [intros _; left; auto|intros _; left; reflexivity].
  - apply name_eqb_neq in E. split; (intros [Y|Y]; [|right; exact Y]); [congruence|destruct Y; congruence].
Qed.
Lemma news_skipped p q x v (k0 kq : option N) r l c :
  to_number x = Ok v -> kq = Some c -> v <= c -> (q = p -> k0 = kq) -> (hears_of p l <-> news_about p k0 r) ->
  (hears_of p l <-> news_about p k0 (@cons name (q ++ [x]) r)).
Proof.
  intros Ev Eq L K0 IH. rewrite IH, (news_cons p q x v k0 r Ev). split; [auto|]. intros [[Q N]|Y]; [|exact Y].
  exfalso. rewrite (K0 Q), Eq in N. destruct N as [N|(cur & [= <-] & N)]; [discriminate|lia].
Qed.
Lemma take_sync_hears p names : forall s l, res (take_sync names s) = Ok l -> (hears_of p l <-> news_about p (known s p) names).
Proof.
  induction names as [|c names IH]; intros s l H.
  - injection H as <-. split; [intros (m & [] & _)|intros (x & v & [] & _)].
  - assert (exists q x v, c = q ++ [x] /\ to_number x = Ok v) as (q & x & v & -> & Ev).
    { cbn [take_sync] in H. rewrite mbind_lift in H. destruct (name_get_minus c 1) as [x|e|u|] eqn:E; try discriminate.
      rewrite mbind_lift in H. destruct (to_number x) as [v|e|u|] eqn:Ev; try discriminate. apply name_split in E. eauto. }
    rewrite (take_sync_head q x v names s Ev) in H.
    destruct (match nm_find q (c_prefixes s) with None => true | Some cur => cur <? v end) eqn:C.
    + rewrite mbind_mod in H. set (s1 := cset_prefixes _ s) in H. unfold mbind in H.
      destruct (take_sync names s1) as [[s2 o2] [l2|e|u|]] eqn:T; try discriminate. injection H as <-.
      apply (news_taken p q x v (known s p) (known s1 p) (known s q)); [exact Ev| | |subst s1; apply known_set|apply IH; rewrite T; reflexivity].
      * unfold known. destruct (nm_find q (c_prefixes s)) as [cur|]; [right|left; reflexivity]. apply N.ltb_lt in C. eauto.
      * intros ->. reflexivity.
    + destruct (nm_find q (c_prefixes s)) as [cur|] eqn:F; [|discriminate]. apply N.ltb_ge in C.
      apply (news_skipped p q x v _ (known s q) _ _ cur Ev F C); [intros ->; reflexivity|apply IH; exact H].
Qed.
Lemma take_updates_hears p names : forall s s' o l, pfx_ok (k_prefixes (f_core s)) -> take_updates names s = (s', o, Ok l) ->
  (hears_of p l <-> news_about p (get_seq p (f_core s)) names).
Proof.
  induction names as [|c names IH]; intros s s' o l Hp; cbn [take_updates].
  - intros [= <- <- <-]. split; [intros (m & [] & _)|intros (x & v & [] & _)].
  - rewrite mbind_lift. destruct (name_get_minus c 1) as [x|e|u|] eqn:Ex; try discriminate.
    rewrite mbind_lift. destruct (to_number x) as [v|e|u|] eqn:Ev; try discriminate. cbv zeta. rewrite mbind_get.
    pose proof (last_split c x Ex) as Hc. set (q := name_prefix_back c 1) in *. clearbody q. subst c.
    destruct (match get_seq _ _ with None => true | Some cur => cur <? v end) eqn:C.
    + unfold mbind. destruct (prefix_seq q s) as [[s1 o1] [cur|e|u|]] eqn:E1; try discriminate.
      destruct (fp_op _ s1) as [[s2 o2] [[]|e|u|]] eqn:E2; try discriminate.
      destruct (take_updates names s2) as [[s3 o3] [l3|e|u|]] eqn:T; try discriminate.
      intros [= <- <- <-].
      assert (cur = seq0 (get_seq q (f_core s)) /\ pfx_ok (k_prefixes (f_core s1)) /\
        forall p, get_seq p (f_core s1) = if name_eqb p q then Some cur else get_seq p (f_core s)) as (-> & P1 & G1).
      { apply prefix_seq_inv in E1 as [(w & Ew & -> & _ & [= ->])|(En & _ & [= ->] & ->)].
        - rewrite Ew. split; [reflexivity|]. split; [exact Hp|]. intros p'. destruct (name_eqb p' q) eqn:E; [|reflexivity].
          apply name_eqb_eq in E. subst p'. exact Ew.
        - rewrite En. split; [reflexivity|]. cbn [f_core fset_core].
          assert (cstep (f_core s) (CAdd q) = Ok (fst (core_add q (f_core s)))) as Es by reflexivity. split.
          + eapply cstep_pfx; [exact Hp| |exact Es]. exact I.
          + intros p'. rewrite (get_seq_step p' _ _ _ Hp Es). cbn [seq_step]. destruct (name_eqb p' q) eqn:E; [|reflexivity].
            apply name_eqb_eq in E. subst p'. rewrite En. reflexivity. }
      apply fp_op_inv in E2 as [(k & _ & Ek & -> & _)|(_ & _ & Nr)]; [|congruence].
      apply to_number_lt in Ev as Lv.
      assert (pfx_ok (k_prefixes k)) as P2 by (eapply cstep_pfx; [exact P1| |exact Ek]; exact Lv).
      apply (news_taken p q x v (get_seq p (f_core s)) (get_seq p k) (get_seq q (f_core s)) names l3 _ (f_incoming s) Ev).
      * destruct (get_seq q (f_core s)) as [cur|]; [right|left; reflexivity]. apply N.ltb_lt in C. eauto.
      * intros ->. reflexivity.
      * rewrite (get_seq_step p _ _ _ P1 Ek). cbn [seq_step]. rewrite G1. destruct (name_eqb p q) eqn:E; [|reflexivity].
        cbn [option_map]. f_equal. destruct (get_seq q (f_core s)) as [cur|]; cbn; [apply N.ltb_lt in C|]; lia.
      * exact (IH (fset_core k s1) s3 o3 l3 P2 T).
    + intros T. destruct (get_seq q (f_core s)) as [cur|] eqn:F; [|discriminate]. apply N.ltb_ge in C.
      apply (news_skipped p q x v _ (get_seq q (f_core s)) _ _ cur Ev F C); [intros ->; reflexivity|exact (IH s s' o l Hp T)].
Qed.

(** * C88, and C44 for consumers *)
(** a sync reply makes the consumer report a prefix, subscribed or not, exactly if all names of the reply end in numbers
    and one of them gives the prefix a number higher than the known one, or its first *)
Theorem C88_reported_exactly_when : forall K evs s o i n buf names p,
  creaches K evs s o -> cfetch i (c_live s) = Some (KSync, n) -> is_nack (c_type s) = false -> state_of_buffer buf = Ok names ->
  ((exists l m, In (CoUpdate l) (outs (c_step K (CeContent i buf [] []) s)) /\ In m l /\ mi_prefix m = p) <->
   Forall good_name names /\ news_about p (seq_of p s) names).
Proof.
  intros K evs s o i n buf names p _ Hf Hn Hb. cbn [c_step]. rewrite mbind_get, Hf.
  unfold finish. rewrite mbind_mod, Hn. unfold on_csync_data. rewrite mbind_mod, mbind_lift, Hb.
  set (s1 := cset_iblt _ _). change (seq_of p s) with (known s1 p). clearbody s1.
  assert (forall s2 l, ~ In (CoUpdate l) (outs (send_sync K s2))) as SS.
  { intros s2 l0. rewrite send_sync_eq. destruct (c_iblt s2); [intros []|].
    destruct (append_bloom _ _); cbn [st outs fst snd]; try (intros []; fail). intros [X|[]]. discriminate. }
  pose proof (take_sync_hears p names s1) as H. destruct (take_sync_inv names s1) as (T1 & _).
  assert (Forall good_name names <-> exists l, res (take_sync names s1) = Ok l) as G.
  { split; [intros G; exact (take_sync_good names G s1)|]. intros [l El].
    destruct (bad_or_all names) as [G|(a & bad & b & -> & A & B)]; [exact G|].
    destruct (take_sync_until a bad b s1 A B) as [_ T2]. destruct (T2 l El). }
  rewrite G. clear G. unfold mbind at 1, outs. destruct (take_sync names s1) as [[s2 o2] r2] eqn:Et. cbn [outs res fst snd] in *. subst o2.
  destruct r2 as [l2|e|u|]; [|split; [intros (l & m & [] & _)|intros [[l [=]] _]]..]. specialize (H l2 eq_refl). cbn [app].
  rewrite <- H. pose proof (SS s2) as X. unfold outs in X. destruct l2 as [|m2 l2].
  - rewrite mbind_ret. destruct (send_sync K s2) as [[s3 o3] r3]. cbn [fst snd app] in *. split.
    + intros (l & m & Hl & _). destruct (X l Hl).
    + intros [_ (m & [] & _)].
  - unfold memit at 1, calls, mret, mbind. destruct (send_sync K s2) as [[s3 o3] r3]. cbn in X |- *. split.
    + intros (l & m & [[= <-]|Hl] & Hm & Em); [|destruct (X l Hl)]. split; [eauto|]. exists m. auto.
    + intros [_ (m & Hm & Em)]. exists (m2 :: l2), m. split; [left; reflexivity|]. auto.
Qed.
Print Assumptions C88_reported_exactly_when.
(** full-sync nodes: for content whose handling ends normally *)
Theorem C44_reported_exactly_when : forall K sys evs s o i n buf script names s' o' p,
  reaches K sys evs s o -> fetch_of i (f_live s) = Some n -> content_names K buf names ->
  fp_step K (FeContent i buf script) s = (s', o', Ok tt) ->
  ((exists l m, In (FoUpdate l) o' /\ In m l /\ mi_prefix m = p) <-> news_about p (get_seq p (f_core s)) names).
Proof.
  intros K sys evs s o i n buf script names s' o' p R Hf Hc E. pose proof (reaches_pfx _ _ _ _ _ R) as Hp. clear R.
  cbn [fp_step] in E. rewrite mbind_get, Hf, mbind_mod in E. set (s0 := fset_live _ s) in *.
  unfold on_sync_data, delete_pending in E. rewrite mbind_mod in E. set (s1 := fset_pending _ s0) in *.
  unfold content_names in Hc. rewrite Hc in E. change (f_core s) with (f_core s1) in *. clearbody s1. clear s0.
  unfold mbind at 1 in E. destruct (take_updates names s1) as [[s2 o2] r2] eqn:T.
  destruct (take_inv names s1 s2 o2 r2 Hp T) as (F & O & P & _).
  assert (forall l, ~ In (FoUpdate l) o2) as No.
  { intros l X. apply only_ops_nr in O. unfold no_report in O. rewrite Forall_forall in O. exact (O _ X l eq_refl). }
  destruct r2 as [l2|e|u|]; try discriminate.
  rewrite <- (take_updates_hears p names s1 s2 o2 l2 Hp T). destruct l2 as [|m2 l2].
  - unfold draw in E. rewrite mbind_mod, mbind_assoc, mbind_get, mbind_assoc, mbind_mod, mbind_ret in E.
    unfold mmod in E. injection E as _ <-. rewrite app_nil_r. split; [intros (l & m & Hl & _); destruct (No l Hl)|intros (m & [] & _)].
  - rewrite mbind_emit in E.
    set (rest := (api_calls K script ;; mlet j <- draw K;
        mmod (fun s => fset_wait false (fset_sched (Some (f_now s + j, KSend)) s)) ;; process_waiting K)) in *.
    injection E as _ <- _.
    assert (no_report (outs (rest s2))) as Nr
      by (apply (tr_after K (fun _ => True) nr_rel (nr_closed K _)); [intros; exact I|apply Forall_forall; intros; exact I]).
    unfold no_report in Nr. rewrite Forall_forall in Nr. split.
    + intros (l & m & Hl & Hm & Em). apply in_app_iff in Hl as [Hl|[Hl|Hl]]; [destruct (No l Hl)| |destruct (Nr _ Hl l eq_refl)].
      injection Hl as <-. exists m. auto.
    + intros (m & Hm & Em). exists (m2 :: l2), m. split; [|auto]. apply in_or_app. right. left. reflexivity.
Qed.
Print Assumptions C44_reported_exactly_when.

(** both sides occur: the consumer is not subscribed to [pa] and reports it; it knows 5 of [pb], and 4 is no news *)
Definition mixed_names : list name := [append_number pa 9; append_number pb 4].
Definition buf_88 : bytes := Eval vm_compute in encode_names mixed_names.
Example C88_reported_example : exists n, creaches Kc evs_c5 s_c5 o_c5 /\
  cfetch 1 (c_live s_c5) = Some (KSync, n) /\ is_nack (c_type s_c5) = false /\ state_of_buffer buf_88 = Ok mixed_names /\
  is_subscribed pa s_c5 = false /\ Forall good_name mixed_names /\ news_about pa (seq_of pa s_c5) mixed_names /\
  ~ news_about pb (seq_of pb s_c5) mixed_names.
Proof.
  eexists. split; [exact reach_c5|]. split; [vm_compute; reflexivity|]. split; [reflexivity|]. split; [vm_compute; reflexivity|].
  split; [reflexivity|]. split; [repeat constructor; apply number_good; reflexivity|]. unfold mixed_names.
  change (append_number pa 9) with (pa ++ [number_comp TYPE_GENERIC 9]). change (append_number pb 4) with (pb ++ [number_comp TYPE_GENERIC 4]).
  rewrite (news_cons pa pa _ 9) by (vm_compute; reflexivity). split; [left; split; [reflexivity|left; reflexivity]|].
  rewrite (news_cons pb pa _ 9), (news_cons pb pb _ 4) by (vm_compute; reflexivity).
  intros [[X _]|[[_ X]|(x & v & [] & _)]]; [discriminate|]. destruct X as [X|(cur & X & L)]; [discriminate|].
  vm_compute in X. injection X as <-. vm_compute in L. discriminate.
Qed.
Example C44_reported_example : exists n names, reaches Kf 0 [] s_44f o_44f /\ fetch_of 0 (f_live s_44f) = Some n /\
  content_names Kf zero_content names /\ (exists s' o', fp_step Kf (FeContent 0 zero_content []) s_44f = (s', o', Ok tt)) /\
  news_about pb (get_seq pb (f_core s_44f)) names /\ ~ news_about [] (get_seq [] (f_core s_44f)) names.
Proof.
  exists (match f_live s_44f with (_, m) :: _ => m | [] => [] end), zero_first.
  split; [split; [constructor|vm_compute; reflexivity]|]. split; [reflexivity|]. split; [vm_compute; reflexivity|].
  split; [eexists _, _; vm_compute; reflexivity|]. split.
  - exists (number_comp TYPE_GENERIC 7), 7. split; [right; left; reflexivity|]. split; [vm_compute; reflexivity|left; reflexivity].
  - intros (x & v & H & _). cbn in H. repeat (destruct H as [H|H]; [discriminate|]). destruct H.
Qed.
