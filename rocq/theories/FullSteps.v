(** What the handlers of full-sync nodes do, in closed form. *)
From Coq Require Import List NArith ZArith Bool Arith Lia.
From Verif Require Import Base BaseFacts Mon MonFacts Iblt SpecIblt IbltFacts Tlv TlvFacts State NMap NMapFacts
  Codec CodecFacts Store StoreFacts Producer SpecProducer ProducerFacts Partial SpecPartial PartialFacts
  PartialSteps Full FullTrace SpecFull FullFacts FullSafe.
Import ListNotations.
Local Open Scope N_scope.

Lemma data_of_app a b : data_of (a ++ b) = data_of a ++ data_of b.
Proof. induction a as [|[]]; simpl; auto. rewrite IHa. reflexivity. Qed.
Lemma data_of_data l : data_of (map FoData l) = l.
Proof. induction l; simpl; congruence. Qed.
Lemma only_interests_data o : only_interests o -> data_of o = [].
Proof. induction 1 as [|x o (n & t & ->) H IH]; auto. Qed.
Lemma only_interests_ops o : only_interests o -> ops_of o = [].
Proof. induction 1 as [|x o (n & t & ->) H IH]; auto. Qed.

(** ** Sending *)
Record frame (s s' : fp) : Prop := mkFrame {
  fr_core : f_core s' = f_core s; fr_pending : f_pending s' = f_pending s;
  fr_waiting : f_waiting s' = f_waiting s; fr_delay : f_delay s' = f_delay s;
  fr_now : f_now s' = f_now s; fr_sys : f_sys s' = f_sys s; fr_incoming : f_incoming s' = f_incoming s;
  fr_wait : f_wait s' = f_wait s }.
Lemma frame_refl s : frame s s. Proof. constructor; reflexivity. Qed.
Lemma frame_trans a b c : frame a b -> frame b c -> frame a c.
Proof. intros [] []. constructor; congruence. Qed.
Lemma frame_stopped s : frame s (stopped s).
Proof. unfold stopped. destruct (f_fetcher s); constructor; reflexivity. Qed.
Lemma stopped_pub s : f_pub (stopped s) = f_pub s.
Proof. unfold stopped. destruct (f_fetcher s); reflexivity. Qed.
Lemma send_spec K s : schemes_ok K -> exists s' o, send_sync_interest K s = (s', o, Ok tt) /\
  frame s s' /\ f_pub s' = f_pub s /\ only_interests o.
Proof.
  intros Sk. rewrite send_eq. destruct (f_wait s) eqn:W.
  - exists s, []. repeat split; auto. constructor.
  - destruct (sync_name_total K (f_core s) Sk) as (n & -> & _). destruct (_ && _).
    + exists (stopped s), []. split; [reflexivity|]. split; [apply frame_stopped|].
      split; [apply stopped_pub|constructor].
    + eexists _, _. split; [reflexivity|]. split.
      * eapply frame_trans; [apply frame_stopped|]. constructor; reflexivity.
      * split; [apply stopped_pub|]. constructor; [eauto|constructor].
Qed.
Lemma fp_publish_total K n b f s : n <> [] -> exists p l,
  publish (fc_env K) (f_now s) n n b f (f_pub s) = (p, Ok l) /\
  fp_publish K n n b f s = (fset_pub p s, map FoData l, Ok tt).
Proof.
  intros H. rewrite fp_publish_eq. destruct (publish _ _ _ _ _ _ _) as [p r] eqn:P.
  assert (exists l, r = Ok l) as (l & ->).
  { unfold publish in P. injection P as _ <-. apply put_segment_total; auto. }
  exists p, l. auto.
Qed.
Lemma data_spec K n l f s : schemes_ok K -> n <> [] -> exists ds s' o,
  send_sync_data K n l f s = (s', map FoData ds ++ o, Ok tt) /\
  answered K (f_now s) (f_pub s) (f_pub s') n l f ds /\ frame s s' /\ only_interests o.
Proof.
  intros Sk Hn. unfold send_sync_data. rewrite mbind_get. cbv zeta.
  destruct (scheme_ok_compress (fc_codec K) (fc_cscheme K) (encode_names l) (proj2 Sk)) as [b Eb].
  assert (forall s0, frame s s0 -> f_pub s0 = f_pub s -> exists ds s' o,
    (mlet buf <- mlift (compress (fc_codec K) (fc_cscheme K) (encode_names l));
     fp_publish K n n buf f ;; (if name_eqb (f_outstanding s) n then send_sync_interest K else mret tt)) s0
    = (s', map FoData ds ++ o, Ok tt) /\
    answered K (f_now s) (f_pub s) (f_pub s') n l f ds /\ frame s s' /\ only_interests o) as H.
  { intros s0 Fr Fp. rewrite mbind_lift, Eb. destruct (fp_publish_total K n b f s0 Hn) as (p & ds & P & E).
    rewrite (fr_now _ _ Fr), Fp in P. unfold mbind. rewrite E.
    assert (frame s (fset_pub p s0)) as F1 by (eapply frame_trans; [exact Fr|constructor; reflexivity]).
    destruct (name_eqb (f_outstanding s) n).
    - destruct (send_spec K (fset_pub p s0) Sk) as (s2 & o2 & -> & F2 & P2 & O2).
      exists ds, s2, o2. split; [reflexivity|]. split; [exists b; rewrite P2; auto|].
      split; [eapply frame_trans; eauto|exact O2].
    - exists ds, (fset_pub p s0), []. split; [reflexivity|]. split; [exists b; auto|].
      split; [exact F1|constructor]. }
  destruct (_ && _).
  - unfold stop_fetcher. rewrite mbind_assoc, !mbind_mod. apply H.
    + fold (stopped s). eapply frame_trans; [apply frame_stopped|]. constructor; reflexivity.
    + fold (stopped s). simpl. apply stopped_pub.
  - rewrite mbind_ret. apply H; [apply frame_refl|reflexivity].
Qed.

(** ** Which names are offered *)
Fixpoint offer (k : core) (neg hs : list N) : list name :=
  match hs with
  | [] => []
  | h :: r =>
    match bm_left h (k_bimap k) with
    | None => offer k neg r
    | Some nm =>
      let p := name_prefix_back nm 1 in
      let v := match get_seq p k with Some v => v | None => 0 end in
      if nset_mem (name_hash (append_number p (w64 (v + 1)))) neg then offer k neg r
      else nm :: offer k neg r
    end
  end.
Lemma prefix_seq_known p s v : get_seq p (f_core s) = Some v -> prefix_seq p s = (s, [], Ok v).
Proof. intros H. unfold prefix_seq. rewrite mbind_get, H. reflexivity. Qed.
Lemma name_prefix_number p v : name_prefix_back (append_number p v) 1 = p.
Proof. apply name_prefix_back_snoc. Qed.
Lemma offered_eq K n neg hs s : uri_ok K -> core_ok n (f_core s) ->
  offered K neg hs s = (s, [], Ok (offer (f_core s) neg hs)).
Proof.
  intros Uk Ck. induction hs as [|h hs IH]; [reflexivity|]. cbn [offered offer].
  rewrite mbind_get. destruct (bm_left h (k_bimap (f_core s))) as [nm|] eqn:E; [|exact IH].
  apply (rep_lookup _ _ _ _ _ _ (ok_rep _ _ Ck)) in E as [(p & v & F & Nz & ->) _].
  rewrite name_prefix_number. cbv zeta.
  unfold mbind at 1. rewrite (prefix_seq_known p s v F).
  assert ((if v =? 0 then mret true else is_future K p neg) s =
          (s, [], Ok (nset_mem (name_hash (append_number p (w64 (v + 1)))) neg))) as X.
  { apply N.eqb_neq in Nz. rewrite Nz. unfold is_future. rewrite Uk, mbind_lift.
    unfold mbind. rewrite (prefix_seq_known p s v F). reflexivity. }
  unfold mbind at 1. rewrite X. unfold mbind. rewrite IH. unfold get_seq. rewrite F.
  destruct (nset_mem _ neg); reflexivity.
Qed.
Lemma offer_In n k neg hs nm : core_ok n k ->
  (In nm (offer k neg hs) <->
   exists p v, get_seq p k = Some v /\ v <> 0 /\ nm = append_number p v /\
     In (name_hash nm) hs /\ ~ In (name_hash (append_number p ((v + 1) mod two64))) neg).
Proof.
  intros Ck. induction hs as [|h hs IH]; simpl.
  - split; [contradiction|]. intros (p & v & _ & _ & _ & [] & _).
  - destruct (bm_left h (k_bimap k)) as [m|] eqn:E.
    + apply (rep_lookup _ _ _ _ _ _ (ok_rep _ _ Ck)) in E as [(p & v & F & Nz & ->) ->].
      rewrite name_prefix_number. unfold get_seq at 1 2. rewrite F.
      destruct (nset_mem _ neg) eqn:M.
      * apply nset_mem_In in M. rewrite IH. split; intros (p' & v' & G & Z & -> & H & X); exists p', v'.
        -- repeat split; auto.
        -- repeat split; auto. destruct H as [H|H]; auto. exfalso. apply X.
           assert (append_number p v = append_number p' v') as Q.
           { apply (rep_inj _ _ _ _ (ok_rep _ _ Ck)); [exists p, v; auto|exists p', v'; auto|auto]. }
           assert (p = p') as <- by (rewrite <- (name_prefix_number p v), Q; apply name_prefix_number).
           unfold get_seq in G. rewrite F in G. injection G as <-. exact M.
      * simpl. rewrite IH. split.
        -- intros [<-|(p' & v' & G & Z & -> & H & X)].
           ++ exists p, v. repeat split; auto. intros X. apply nset_mem_In in X. unfold w64 in M. congruence.
           ++ exists p', v'. repeat split; auto.
        -- intros (p' & v' & G & Z & -> & [H|H] & X).
           ++ left. apply (rep_inj _ _ _ _ (ok_rep _ _ Ck)); [exists p, v; auto|exists p', v'; auto|auto].
           ++ right. exists p', v'. auto.
    + rewrite IH. split; intros (p & v & G & Z & -> & H & X); exists p, v; repeat split; auto.
      destruct H as [-> |H]; auto. exfalso.
      assert (bm_left (name_hash (append_number p v)) (k_bimap k) = Some (append_number p v)) as Q.
      { apply (rep_lookup _ _ _ _ _ _ (ok_rep _ _ Ck)). split; auto. exists p, v. auto. }
      congruence.
Qed.
Lemma offer_NoDup n k neg hs : core_ok n k -> NoDup hs -> NoDup (offer k neg hs).
Proof.
  intros Ck. induction 1 as [|h hs Hh Hn IH]; simpl; [constructor|].
  destruct (bm_left h (k_bimap k)) as [m|] eqn:E; auto. cbv zeta. destruct (nset_mem _ neg); auto.
  constructor; auto. intros X. apply (offer_In n) in X; auto. destruct X as (p & v & _ & _ & _ & X & _).
  apply (rep_lookup _ _ _ _ _ _ (ok_rep _ _ Ck)) in E as [_ ->]. auto.
Qed.

(** ** Interests *)
Lemma request_names K n t rcvd : full_request K n t rcvd -> names_ibf K n t rcvd /\ n <> [].
Proof.
  intros (c & c1 & -> & H & E). split; [|destruct (fc_sync K); discriminate].
  split; [rewrite skipn_app_len; reflexivity|]. exists c, c1. rewrite !(name_get_back_app (fc_sync K) [c; c1]) by (simpl; lia). auto.
Qed.
Lemma finterest_names K n t rcvd l timed s : names_ibf K n t rcvd ->
  on_finterest K n l timed s =
  match reply_from_store n (f_pub s) with
  | Some d => (s, [FoData d], Ok tt)
  | None =>
    (mlet d <- mlift (iblt_sub (fc_fuel K) (k_iblt (f_core s)) t);
     if can_decode d then on_decoded K n l timed t d else on_undecodable K n timed rcvd d) s
  end.
Proof.
  intros (L & c & c1 & H2 & H1 & Hc & Hi). unfold on_finterest. rewrite mbind_get.
  destruct (reply_from_store _ _); [reflexivity|]. cbv zeta. rewrite L.
  cbn [length Nat.eqb negb]. rewrite H2, H1. do 2 rewrite mbind_lift. rewrite Hc, mbind_lift, Hi. reflexivity.
Qed.
Lemma finterest_request K n t rcvd l timed s : full_request K n t rcvd ->
  on_finterest K n l timed s =
  match reply_from_store n (f_pub s) with
  | Some d => (s, [FoData d], Ok tt)
  | None =>
    (mlet d <- mlift (iblt_sub (fc_fuel K) (k_iblt (f_core s)) t);
     if can_decode d then on_decoded K n l timed t d else on_undecodable K n timed rcvd d) s
  end.
Proof. intros H. apply request_names in H as [H _]. apply finterest_names; auto. Qed.
Lemma step_request K n t rcvd l s : full_request K n t rcvd ->
  fp_step K (FeInterest n l) s = on_finterest K n l false s.
Proof.
  intros (c & c1 & -> & _). cbn [fp_step]. rewrite is_prefix_app. reflexivity.
Qed.
(** an answered positive difference *)
Lemma decoded_positive K m n l timed t d s : schemes_ok K -> uri_ok K -> core_ok m (f_core s) ->
  n <> [] -> positive d <> [] ->
  on_decoded K n l timed t d s =
  match offer (f_core s) (negative d) (positive d) with
  | [] => (s, [], Ok tt)
  | names => (send_sync_data K n names (fc_fresh K) ;; mark_waiting n) s
  end.
Proof.
  intros Sk Uk Ck Hn Hp. unfold on_decoded. rewrite mbind_get.
  destruct (positive d) as [|h hs] eqn:E; [contradiction|]. rewrite <- E.
  assert ((mlet l0 <- offered K (negative d) (positive d);
    match l0 with [] => mret tt | _ :: _ => send_sync_data K n l0 (fc_fresh K) ;; mark_waiting n end) s =
    match offer (f_core s) (negative d) (positive d) with
    | [] => (s, [], Ok tt)
    | names => (send_sync_data K n names (fc_fresh K) ;; mark_waiting n) s
    end) as H.
  { unfold mbind at 1. rewrite (offered_eq K m _ _ s Uk Ck).
    destruct (offer (f_core s) (negative d) (positive d)) as [|x xs]; [reflexivity|].
    destruct ((send_sync_data K n (x :: xs) (fc_fresh K);; mark_waiting n) s) as [[a b] c]. reflexivity. }
  destruct (negative d); exact H.
Qed.
Definition marked (n : name) (s : fp) : fp :=
  match nm_find n (f_waiting s) with
  | Some _ => fset_waiting (nm_set n MAX_TRIES (f_waiting s)) s
  | None => s
  end.
Lemma mark_eq n s : mark_waiting n s = (marked n s, [], Ok tt).
Proof. reflexivity. Qed.
