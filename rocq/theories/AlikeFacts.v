(** Producers with the same data behave alike. *)
From Coq Require Import List NArith ZArith Bool Arith Lia.
From Verif Require Import Base BaseFacts Mon MonFacts Iblt SpecIblt IbltFacts Tlv TlvFacts State NMap NMapFacts
  Codec CodecFacts Bloom Store StoreFacts Producer SpecProducer ProducerFacts Properties_Producer Partial SpecPartial PartialFacts
  PartialSteps Full FullTrace SpecFull FullFacts FullSafe FullRuns SpecAlike.
Import ListNotations.
Local Open Scope N_scope.

(** ** Two executions side by side *)
Section Sim.
Context {S O : Type}.
Variable view : list O -> list data.
Hypothesis view_nil : view [] = [].
Hypothesis view_app : forall a b, view (a ++ b) = view a ++ view b.
Variable R : S -> S -> Prop.
Definition simat {A} (m1 m2 : M S O A) (s1 s2 : S) : Prop :=
  R (st (m1 s1)) (st (m2 s2)) /\ all_alike (view (outs (m1 s1))) (view (outs (m2 s2))) /\ res (m1 s1) = res (m2 s2).
Definition sim {A} (m1 m2 : M S O A) : Prop := forall s1 s2, R s1 s2 -> simat m1 m2 s1 s2.
Lemma sim_ret {A} (a : A) : sim (mret a) (mret a).
Proof. intros s1 s2 H. split; [exact H|]. split; [|reflexivity]. cbn. rewrite view_nil. constructor. Qed.
Lemma sim_lift {A} (r : outcome A) : sim (mlift r) (mlift r).
Proof. intros s1 s2 H. split; [exact H|]. split; [|reflexivity]. cbn. rewrite view_nil. constructor. Qed.
Lemma sim_mod f g : (forall s1 s2, R s1 s2 -> R (f s1) (g s2)) -> sim (mmod f) (mmod g).
Proof. intros F s1 s2 H. split; [apply F, H|]. split; [|reflexivity]. cbn. rewrite view_nil. constructor. Qed.
Lemma simat_bind {A B} (m1 m2 : M S O A) (f1 f2 : A -> M S O B) s1 s2 :
  simat m1 m2 s1 s2 -> (forall a, sim (f1 a) (f2 a)) -> simat (mbind m1 f1) (mbind m2 f2) s1 s2.
Proof.
  intros (A1 & A2 & A3) F. unfold simat, mbind, st, outs, res in *.
  destruct (m1 s1) as [[x1 y1] r1], (m2 s2) as [[x2 y2] r2]. cbn [fst snd] in *. subst r2.
  destruct r1 as [a|e|u|]; cbn [fst snd]; auto.
  destruct (F a x1 x2 A1) as (B1 & B2 & B3). unfold st, outs, res in *.
  destruct (f1 a x1) as [[z1 w1] q1], (f2 a x2) as [[z2 w2] q2]. cbn [fst snd] in *.
  split; [exact B1|]. split; [|exact B3]. rewrite !view_app. apply Forall2_app; assumption.
Qed.
Lemma sim_bind {A B} (m1 m2 : M S O A) (f1 f2 : A -> M S O B) :
  sim m1 m2 -> (forall a, sim (f1 a) (f2 a)) -> sim (mbind m1 f1) (mbind m2 f2).
Proof. intros H F s1 s2 Hs. apply simat_bind; auto. Qed.
Lemma simat_get {B} (f1 f2 : S -> M S O B) s1 s2 :
  simat (f1 s1) (f2 s2) s1 s2 -> simat (mbind mget f1) (mbind mget f2) s1 s2.
Proof.
  unfold simat, mbind, mget, st, outs, res. destruct (f1 s1 s1) as [[a b] c], (f2 s2 s2) as [[a' b'] c']. auto.
Qed.
Lemma simat_lift {A B} (r : outcome A) (f1 f2 : A -> M S O B) s1 s2 : R s1 s2 ->
  (forall a, r = Ok a -> simat (f1 a) (f2 a) s1 s2) -> simat (mbind (mlift r) f1) (mbind (mlift r) f2) s1 s2.
Proof.
  intros H F. unfold simat, mbind, mlift, st, outs, res in *.
  destruct r as [a|e|u|]; cbn [fst snd app]; try (split; [exact H|]; split; [rewrite view_nil; constructor|reflexivity]).
  specialize (F a eq_refl). destruct (f1 a s1) as [[x y] z], (f2 a s2) as [[x' y'] z']. exact F.
Qed.
End Sim.

(** ** Publications *)
Lemma alike_refl d : alike d d.
Proof. repeat split; auto. Qed.
Lemma segment_alike E1 E2 i1 i2 base v1 v2 buf fresh :
  Forall2 alike (segment E1 i1 (append_version base v1) buf fresh) (segment E2 i2 (append_version base v2) buf fresh).
Proof.
  unfold segment. induction (seq 0 (nseg buf)) as [|i l IH]; simpl; constructor; auto.
  unfold seg_data, alike. cbn [d_type d_content d_final d_fresh d_name]. repeat (split; [reflexivity|]).
  right. exists base, v1, v2. eexists. split; reflexivity.
Qed.
Lemma Forall2_length' {A B} (P : A -> B -> Prop) l l' : Forall2 P l l' -> length l = length l'.
Proof. induction 1; simpl; congruence. Qed.
Lemma Forall2_nth {A B} (P : A -> B -> Prop) l l' : Forall2 P l l' -> forall i,
  match nth_error l i, nth_error l' i with Some a, Some b => P a b | None, None => True | _, _ => False end.
Proof. induction 1 as [|a b l l' H _ IH]; intros [|i]; cbn; auto. apply IH. Qed.
Lemma put_alike iname l l' : Forall2 alike l l' ->
  match put_segment iname l, put_segment iname l' with
  | Ok a, Ok b => Forall2 alike a b
  | Throw e, Throw e' => e = e'
  | UB u, UB u' => u = u'
  | Hang, Hang => True
  | _, _ => False
  end.
Proof.
  intros H. unfold put_segment. destruct (name_get_back iname 1) as [last|e|u|]; cbn [obind]; auto.
  destruct (if is_segment last then to_segment last else Ok 0%N) as [k|e|u|]; cbn [obind]; auto.
  rewrite (Forall2_length' _ _ _ H). destruct (N.ltb k _); [|constructor].
  pose proof (Forall2_nth _ _ _ H (N.to_nat k)) as X.
  destruct (nth_error l (N.to_nat k)), (nth_error l' (N.to_nat k)); try contradiction; constructor; auto.
Qed.
Lemma publish_alike E1 E2 now1 now2 iname dname buf fresh p1 p2 :
  match snd (publish E1 now1 iname dname buf fresh p1), snd (publish E2 now2 iname dname buf fresh p2) with
  | Ok a, Ok b => Forall2 alike a b
  | Throw e, Throw e' => e = e'
  | UB u, UB u' => u = u'
  | Hang, Hang => True
  | _, _ => False
  end.
Proof. unfold publish. cbn [snd]. apply put_alike, segment_alike. Qed.

(** ** Producers that know the same *)
Record cores_like (k1 k2 : core) : Prop := mkLike {
  cl_iblt : k_iblt k1 = k_iblt k2;
  cl_prefixes : k_prefixes k1 = k_prefixes k2;
  cl_left : forall h, bm_left h (k_bimap k1) = bm_left h (k_bimap k2) }.
Lemma run_seq n ops k p : Forall cop_wf ops -> crun (core_new n) ops = Ok k -> get_seq p k = seq_after p ops.
Proof. intros W R. exact (get_seq_run p _ _ _ (core_new_pfx n) W R). Qed.
Lemma cores_of_numbers n ops1 ops2 k1 k2 :
  Forall cop_wf ops1 -> Forall cop_wf ops2 -> crun (core_new n) ops1 = Ok k1 -> crun (core_new n) ops2 = Ok k2 ->
  collision_free n ops1 -> collision_free n ops2 ->
  (forall p, get_seq p k1 = get_seq p k2) -> cores_like k1 k2.
Proof.
  intros W1 W2 H1 H2 C1 C2 G. destruct (C32_replicas_agree n ops1 ops2 k1 k2 W1 W2 H1 H2 C1 C2 G) as [A B].
  constructor; auto. apply nm_ext; [apply (crun_ok _ _ _ W1 H1 C1)|apply (crun_ok _ _ _ W2 H2 C2)|exact G].
Qed.
Lemma collision_free_app n a b : collision_free n (a ++ b) -> collision_free n a.
Proof. intros H pre post k E R. apply (H pre (post ++ b) k); [rewrite E, app_assoc; reflexivity|exact R]. Qed.
Lemma matching_like b1 b2 bf hs : (forall h, bm_left h b1 = bm_left h b2) -> matching b1 bf hs = matching b2 bf hs.
Proof.
  intros H. induction hs as [|h hs IH]; [reflexivity|]. cbn [matching]. rewrite H, IH. reflexivity.
Qed.
Lemma lookup_like b1 b2 hs : (forall h, bm_left h b1 = bm_left h b2) -> lookup_names b1 hs = lookup_names b2 hs.
Proof. intros H. induction hs as [|h hs IH]; [reflexivity|]. cbn [lookup_names]. rewrite H, IH. reflexivity. Qed.

(** a publication ends the same way for both *)
Lemma update_like n p v k1 k2 : core_ok n k1 -> core_ok n k2 -> cores_like k1 k2 ->
  match core_update p v k1, core_update p v k2 with
  | Ok a, Ok b => k_count k1 = k_count k2 -> k_count a = k_count b
  | Throw e, Throw e' => e = e'
  | UB u, UB u' => u = u'
  | Hang, Hang => True
  | _, _ => False
  end.
Proof.
  intros O1 O2 [A B C]. unfold core_update. rewrite B. destruct (nm_find p (k_prefixes k2)) as [old|] eqn:E; [|auto].
  destruct (v <=? old); [auto|].
  assert (match (if old =? 0 then Ok k1 else core_forget (append_number p old) k1),
                (if old =? 0 then Ok k2 else core_forget (append_number p old) k2) with
          | Ok a, Ok b => k_iblt a = k_iblt b /\ k_count a = k_count k1 /\ k_count b = k_count k2
          | Throw e, Throw e' => e = e'
          | UB u, UB u' => u = u'
          | Hang, Hang => True
          | _, _ => False
          end) as X.
  { destruct (N.eqb_spec old 0) as [->|Hn]; [auto|]. unfold core_forget.
    assert (livep (k_prefixes k2) (append_number p old)) as L2 by (exists p, old; auto).
    assert (livep (k_prefixes k1) (append_number p old)) as L1 by (rewrite B; exact L2).
    rewrite (rep_right _ _ _ _ _ (ok_rep _ _ O1) L1), (rep_right _ _ _ _ _ (ok_rep _ _ O2) L2), A.
    destruct (iblt_erase (k_iblt k2) _); cbn [obind]; auto. }
  destruct (if old =? 0 then Ok k1 else _) as [a|e|u|], (if old =? 0 then Ok k2 else _) as [b|e'|u'|]; try contradiction; auto.
  destruct X as (X & Y & Z). cbn [obind]. rewrite X. destruct (iblt_insert (k_iblt b) _); cbn [obind]; auto.
  cbn [k_count]. congruence.
Qed.

(** ... and leaves them alike *)
Lemma publish_like n ops1 ops2 k1 k2 p q :
  Forall cop_wf ops1 -> Forall cop_wf ops2 -> cop_wf (CPublish p q) ->
  crun (core_new n) ops1 = Ok k1 -> crun (core_new n) ops2 = Ok k2 ->
  collision_free n (ops1 ++ [CPublish p q]) -> collision_free n (ops2 ++ [CPublish p q]) -> cores_like k1 k2 ->
  match core_publish p q k1, core_publish p q k2 with
  | Ok (a, v), Ok (b, v') => v = v' /\ cores_like a b /\ (k_count k1 = k_count k2 -> k_count a = k_count b)
  | Throw e, Throw e' => e = e'
  | UB u, UB u' => u = u'
  | Hang, Hang => True
  | _, _ => False
  end.
Proof.
  intros W1 W2 Wq R1 R2 C1 C2 L.
  pose proof (crun_ok _ _ _ W1 R1 (collision_free_app _ _ _ C1)) as O1.
  pose proof (crun_ok _ _ _ W2 R2 (collision_free_app _ _ _ C2)) as O2.
  assert (forall k ops x, crun (core_new n) ops = Ok k -> core_publish p q k = Ok x -> crun (core_new n) (ops ++ [CPublish p q]) = Ok (fst x)) as Ex.
  { intros k ops x R P. rewrite crun_app, R. cbn [obind crun cstep]. rewrite P. reflexivity. }
  pose proof (Ex k1 ops1) as E1. pose proof (Ex k2 ops2) as E2. clear Ex.
  unfold core_publish in *. rewrite (cl_prefixes _ _ L) in *. destruct (nm_find p (k_prefixes k2)) as [cur|] eqn:F; [|auto].
  cbv zeta in *. pose proof (update_like n p (publish_seq cur q) k1 k2 O1 O2 L) as U.
  destruct (core_update p (publish_seq cur q) k1) as [a|e|u|] eqn:U1, (core_update p (publish_seq cur q) k2) as [b|e'|u'|] eqn:U2;
    try contradiction; cbn [obind] in *; auto.
  split; [reflexivity|]. split; [|exact U].
  specialize (E1 _ R1 eq_refl). specialize (E2 _ R2 eq_refl). cbn [fst] in *.
  apply (cores_of_numbers n (ops1 ++ [CPublish p q]) (ops2 ++ [CPublish p q])); auto; try (apply Forall_app; auto).
  intros r.
  assert (forall q', seq_after q' ops1 = seq_after q' ops2) as Sq.
  { intros q'. rewrite <- (run_seq _ _ _ q' W1 R1), <- (run_seq _ _ _ q' W2 R2). unfold get_seq. rewrite (cl_prefixes _ _ L). reflexivity. }
  assert (Forall cop_wf (ops1 ++ [CPublish p q]) /\ Forall cop_wf (ops2 ++ [CPublish p q])) as [V1 V2] by (split; apply Forall_app; auto).
  rewrite (run_seq _ _ _ r V1 E1), (run_seq _ _ _ r V2 E2). unfold seq_after in *. rewrite !fold_left_app, Sq. reflexivity.
Qed.

(** requests that agree are listed in the same order *)
Lemma find_map {V W} (f : V -> W) r (m : nmap V) : nm_find r (map (fun x => (fst x, f (snd x))) m) = option_map f (nm_find r m).
Proof.
  induction m as [|[k v] m IH]; [reflexivity|]. cbn [map fst snd nm_find]. destruct (name_eqb r k); [reflexivity|exact IH].
Qed.
Lemma keys_map {V W} (f : V -> W) (m : nmap V) : map fst (map (fun x => (fst x, f (snd x))) m) = map fst m.
Proof. rewrite map_map. reflexivity. Qed.
Lemma same_keys {V W} (f : V -> W) (m m' : nmap V) : nm_sorted m -> nm_sorted m' ->
  (forall r, option_map f (nm_find r m) = option_map f (nm_find r m')) -> nm_keys m = nm_keys m'.
Proof.
  intros H H' E. unfold nm_keys. rewrite <- (keys_map f m), <- (keys_map f m'). f_equal.
  apply nm_ext; [unfold nm_sorted; rewrite keys_map; exact H|unfold nm_sorted; rewrite keys_map; exact H'|].
  intros r. rewrite !find_map. apply E.
Qed.

(** ** Partial producers *)
Section Partial.
Variables K1 K2 : pcfg.
Hypothesis So : same_options K1 K2.
(** the requests about which the two agree *)
Variable D : name -> Prop.
Record related (s1 s2 : pp) : Prop := mkRelated {
  re_core : cores_like (pp_core s1) (pp_core s2);
  re_sorted1 : nm_sorted (pp_pending s1);
  re_sorted2 : nm_sorted (pp_pending s2);
  re_same : forall r, D r -> same_request r s1 s2 }.
Notation psim := (sim (fun o : list data => o) related).
Notation psimat := (simat (fun o : list data => o) related).
Lemma publish_sim iname dname buf fresh : psim (pp_publish K1 iname dname buf fresh) (pp_publish K2 iname dname buf fresh).
Proof.
  intros s1 s2 H. pose proof (publish_alike (pc_env K1) (pc_env K2) (pp_now s1) (pp_now s2) iname dname buf fresh (pp_pub s1) (pp_pub s2)) as X.
  unfold simat, pp_publish, st, outs, res. destruct (publish _ _ _ _ _ _ (pp_pub s1)) as [q1 r1], (publish _ _ _ _ _ _ (pp_pub s2)) as [q2 r2].
  cbn [snd] in X. assert (related (set_pub q1 s1) (set_pub q2 s2)) as Y by (destruct H; constructor; assumption).
  destruct r1, r2; try contradiction; cbn [fst snd]; (split; [exact Y|]); split; try constructor; auto; congruence.
Qed.
Lemma related_pub q1 q2 s1 s2 : related s1 s2 -> related (set_pub q1 s1) (set_pub q2 s2).
Proof. intros [A B C E]. constructor; assumption. Qed.
Lemma nack_sim n : psim (pp_send_nack K1 n) (pp_send_nack K2 n).
Proof.
  intros s1 s2 H. unfold pp_send_nack. apply simat_get. rewrite (so_codec _ _ So), (so_scheme _ _ So), (cl_iblt _ _ (re_core _ _ H)).
  apply simat_lift; [reflexivity|exact H|]. intros dn _. unfold simat. rewrite !mbind_mod. cbn [memit st outs res fst snd].
  split; [apply related_pub, H|]. split; [|reflexivity]. constructor; [|constructor].
  unfold nack_data, alike. cbn [d_type d_content d_final d_fresh d_name]. rewrite (so_sfresh _ _ So). repeat (split; [reflexivity|]). left. reflexivity.
Qed.
Lemma same_set r key e1 e2 q1 q2 s1 s2 : (r <> key -> same_request r s1 s2) ->
  (pe_bf e1 = pe_bf e2 /\ pe_iblt e1 = pe_iblt e2) -> pp_pending q1 = nm_set key e1 (pp_pending s1) -> pp_pending q2 = nm_set key e2 (pp_pending s2) ->
  same_request r q1 q2.
Proof.
  intros H [E1 E2] Q1 Q2. unfold same_request. rewrite Q1, Q2, !nm_find_set.
  destruct (name_eqb r key) eqn:X; [cbn; congruence|]. apply H. apply name_eqb_neq. exact X.
Qed.
Lemma interest_sim n l s1 s2 : related s1 s2 ->
  reply_from_store n (pp_pub s1) = None -> reply_from_store n (pp_pub s2) = None ->
  psimat (pp_step K1 (PInterest n l)) (pp_step K2 (PInterest n l)) s1 s2.
Proof.
  intros H N1 N2. cbn [pp_step]. unfold dispatch. rewrite (so_sync _ _ So).
  destruct (is_prefix _ n); [|destruct (is_prefix _ n)].
  - unfold on_hello_interest. apply simat_get. rewrite N1, N2.
    apply simat_lift; [reflexivity|exact H|]. intros [] _; [|apply sim_ret; [reflexivity|exact H]].
    rewrite (so_codec _ _ So), (so_scheme _ _ So), (cl_iblt _ _ (re_core _ _ H)).
    apply simat_lift; [reflexivity|exact H|]. intros dn _. unfold hello_content.
    rewrite (cl_prefixes _ _ (re_core _ _ H)), (so_hfresh _ _ So). apply publish_sim, H.
  - unfold on_sync_interest. apply simat_get. rewrite N1, N2.
    destruct (sync_request _ n) as [rname|]; [|apply sim_ret; [reflexivity|exact H]].
    assert (extract K1 rname = extract K2 rname) as ->.
    { unfold extract. rewrite (so_libm _ _ So), (so_codec _ _ So), (so_scheme _ _ So), (so_n _ _ So). reflexivity. }
    apply simat_lift; [reflexivity|exact H|]. intros [[bf t]|] _; [|apply sim_ret; [reflexivity|exact H]].
    rewrite (so_fuel _ _ So), (cl_iblt _ _ (re_core _ _ H)).
    apply simat_lift; [reflexivity|exact H|]. intros d _. destruct (negb (can_decode d)); [apply nack_sim, H|].
    rewrite (matching_like _ _ bf (positive d) (cl_left _ _ (re_core _ _ H))).
    apply simat_lift; [reflexivity|exact H|]. intros content _. rewrite (so_n _ _ So).
    destruct (_ || _).
    + rewrite (so_codec _ _ So), (so_scheme _ _ So). apply simat_lift; [reflexivity|exact H|]. intros dn _.
      rewrite (so_sfresh _ _ So). apply publish_sim, H.
    + assert (related (set_pending (add_pending rname bf t (pp_now s1 + l, n) (pp_pending s1)) s1)
                      (set_pending (add_pending rname bf t (pp_now s2 + l, n) (pp_pending s2)) s2)) as Y.
      { destruct H as [A B C E]. constructor; [exact A|apply add_pending_sorted; exact B|apply add_pending_sorted; exact C|].
        intros r Hr. unfold add_pending. pose proof (E r Hr) as X.
        destruct (name_eqb r rname) eqn:Q.
        - apply name_eqb_eq in Q. subst rname. unfold same_request in X.
          destruct (nm_find r (pp_pending s1)) as [e1|], (nm_find r (pp_pending s2)) as [e2|]; try discriminate;
            eapply (same_set r r _ _ _ _ s1 s2); try reflexivity; try congruence; cbn [pe_bf pe_iblt]; auto.
          injection X as -> ->. auto.
        - unfold same_request in *. cbn [pp_pending set_pending].
          destruct (nm_find rname (pp_pending s1)), (nm_find rname (pp_pending s2)); rewrite !nm_find_set, Q; exact X. }
      split; [exact Y|]. split; [constructor|reflexivity].
  - apply sim_ret; [reflexivity|exact H].
Qed.
Lemma satisfy_one_sim prefix key : D key -> psim (satisfy_one K1 prefix key) (satisfy_one K2 prefix key).
Proof.
  intros Dk s1 s2 H. unfold satisfy_one. apply simat_get. pose proof (re_same _ _ H key Dk) as X. unfold same_request in X.
  destruct (nm_find key (pp_pending s1)) as [e1|], (nm_find key (pp_pending s2)) as [e2|]; try discriminate;
    [|apply sim_ret; [reflexivity|exact H]].
  injection X as X1 X2. rewrite X1, X2, (so_fuel _ _ So), (cl_iblt _ _ (re_core _ _ H)).
  apply simat_lift; [reflexivity|exact H|]. intros d _. cbv zeta.
  assert (psim (mmod (fun s => set_pending (nm_erase key (pp_pending s)) s)) (mmod (fun s => set_pending (nm_erase key (pp_pending s)) s))) as Dr.
  { apply sim_mod; [reflexivity|]. intros a b [A B C E]. constructor; [exact A|apply nm_erase_sorted; exact B|apply nm_erase_sorted; exact C|].
    intros r Hr. unfold same_request in *. cbn [pp_pending set_pending]. rewrite !nm_find_erase by assumption.
    destruct (name_eqb r key); [reflexivity|]. apply E, Hr. }
  destruct (negb (can_decode d)); [apply Dr, H|].
  apply simat_lift; [reflexivity|exact H|]. intros x _. rewrite (so_n _ _ So).
  destruct (x || _); [|apply sim_ret; [reflexivity|exact H]].
  unfold get_seq. rewrite (cl_prefixes _ _ (re_core _ _ H)), (so_codec _ _ So), (so_scheme _ _ So).
  apply simat_lift; [reflexivity|exact H|]. intros dn _. rewrite (so_sfresh _ _ So).
  apply simat_bind; [reflexivity|apply publish_sim, H|]. intros _. exact Dr.
Qed.
Lemma satisfy_sim prefix keys : Forall D keys -> psim (satisfy K1 prefix keys) (satisfy K2 prefix keys).
Proof.
  induction 1 as [|key keys Hk _ IH]; [apply sim_ret; reflexivity|]. cbn [satisfy].
  apply sim_bind; [reflexivity|apply satisfy_one_sim, Hk|]. intros _. exact IH.
Qed.
Lemma publication_sim n ops1 ops2 s1 s2 p q : (forall r, D r) ->
  Forall cop_wf ops1 -> Forall cop_wf ops2 -> cop_wf (CPublish p q) ->
  crun (core_new n) ops1 = Ok (pp_core s1) -> crun (core_new n) ops2 = Ok (pp_core s2) ->
  collision_free n (ops1 ++ [CPublish p q]) -> collision_free n (ops2 ++ [CPublish p q]) -> related s1 s2 ->
  psimat (pp_step K1 (PPublishName p q)) (pp_step K2 (PPublishName p q)) s1 s2.
Proof.
  intros All W1 W2 Wq R1 R2 C1 C2 H. pose proof (publish_like n ops1 ops2 _ _ p q W1 W2 Wq R1 R2 C1 C2 (re_core _ _ H)) as X.
  cbn [pp_step]. unfold pp_publish_name. apply simat_get.
  assert (nm_keys (pp_pending s1) = nm_keys (pp_pending s2)) as Ky.
  { apply (same_keys (fun e => (pe_bf e, pe_iblt e))); [apply H|apply H|]. intros r. apply (re_same _ _ H r (All r)). }
  rewrite Ky. destruct (core_publish p q (pp_core s1)) as [[a v]|e|u|], (core_publish p q (pp_core s2)) as [[b v']|e'|u'|]; try contradiction.
  2-4: unfold simat; cbn; repeat split; try apply H; try constructor; congruence.
  destruct X as (<- & X & _). unfold simat. rewrite !mbind_lift, !mbind_mod. cbn [fst snd].
  assert (related (set_core a s1) (set_core b s2)) as Y by (destruct H; constructor; assumption).
  destruct v as [w|]; [|split; [exact Y|split; [constructor|reflexivity]]].
  exact (satisfy_sim p _ (proj2 (Forall_forall D _) (fun r _ => All r)) _ _ Y).
Qed.
End Partial.

(** ** Full-sync nodes *)
Lemma data_of_app' a b : data_of (a ++ b) = data_of a ++ data_of b.
Proof. induction a as [|[d|n t|l|o] a IH]; simpl; congruence. Qed.
Lemma data_of_map l : data_of (map FoData l) = l.
Proof. induction l as [|d l IH]; simpl; congruence. Qed.
Section Full.
Variables K1 K2 : fcfg.
Hypothesis Sn : same_node_options K1 K2.
Hypotheses (Sk1 : schemes_ok K1) (Sk2 : schemes_ok K2).
Hypotheses (Uk1 : uri_ok K1) (Uk2 : uri_ok K2).
Variable D : name -> Prop.
Record frelated (s1 s2 : fp) : Prop := mkFRelated {
  fr_core : cores_like (f_core s1) (f_core s2);
  fr_count : k_count (f_core s1) = k_count (f_core s2);
  fr_sorted1 : nm_sorted (f_pending s1);
  fr_sorted2 : nm_sorted (f_pending s2);
  fr_same : forall r, D r -> same_node_request r s1 s2 }.
Notation fsim := (sim data_of frelated).
Notation fsimat := (simat data_of frelated).
(** neither the data nor the pending interests change, and no data is sent *)
Definition idle {A} (m : FM A) : Prop := forall s,
  f_core (st (m s)) = f_core s /\ f_pending (st (m s)) = f_pending s /\ data_of (outs (m s)) = [].
Lemma idle_sim (m1 m2 : FM unit) : idle m1 -> idle m2 -> (forall s, res (m1 s) = Ok tt) -> (forall s, res (m2 s) = Ok tt) -> fsim m1 m2.
Proof.
  intros A B R1 R2 s1 s2 [C0 C1 C2 C3 C4]. unfold simat. destruct (A s1) as (A1 & A2 & A3), (B s2) as (B1 & B2 & B3).
  split; [|split].
  - constructor; [congruence|congruence|congruence|congruence|]. intros r Hr. unfold same_node_request. rewrite A2, B2. apply C4, Hr.
  - rewrite A3, B3. constructor.
  - rewrite R1, R2. reflexivity.
Qed.
Lemma idle_ret {A} (a : A) : idle (mret a).
Proof. intros s. repeat split. Qed.
Lemma send_idle K : idle (send_sync_interest K).
Proof.
  intros s. rewrite send_eq. destruct (f_wait s); [repeat split|].
  assert (f_core (stopped s) = f_core s /\ f_pending (stopped s) = f_pending s) as [A B] by (unfold stopped; destruct (f_fetcher s); auto).
  destruct (sync_name K (f_core s)) as [n|e|u|]; [destruct (_ && _)| | |]; cbn [st outs fst snd data_of]; auto.
Qed.
Lemma send_fine K s : schemes_ok K -> res (send_sync_interest K s) = Ok tt.
Proof.
  intros H. rewrite send_eq. destruct (f_wait s); [reflexivity|]. destruct (sync_name_total K (f_core s) H) as (n & -> & _).
  destruct (_ && _); reflexivity.
Qed.
Lemma fpublish_sim iname dname buf fresh : fsim (fp_publish K1 iname dname buf fresh) (fp_publish K2 iname dname buf fresh).
Proof.
  intros s1 s2 H. pose proof (publish_alike (fc_env K1) (fc_env K2) (f_now s1) (f_now s2) iname dname buf fresh (f_pub s1) (f_pub s2)) as X.
  unfold simat, fp_publish, st, outs, res. destruct (publish _ _ _ _ _ _ (f_pub s1)) as [q1 r1], (publish _ _ _ _ _ _ (f_pub s2)) as [q2 r2].
  cbn [snd] in X. assert (frelated (fset_pub q1 s1) (fset_pub q2 s2)) as Y by (destruct H; constructor; assumption).
  destruct r1, r2; try contradiction; cbn [fst snd]; (split; [exact Y|]); split; rewrite ?data_of_map; try constructor; auto; congruence.
Qed.
Lemma delete_sim n : fsim (delete_pending n) (delete_pending n).
Proof.
  apply sim_mod; [reflexivity|]. intros a b [A B C E F]. constructor; [exact A|exact B|apply nm_erase_sorted; exact C|apply nm_erase_sorted; exact E|].
  intros r Hr. unfold same_node_request in *. cbn [f_pending fset_pending]. rewrite !nm_find_erase by assumption.
  destruct (name_eqb r n); [reflexivity|]. apply F, Hr.
Qed.
Lemma data_sim n content fresh : fsim (send_sync_data K1 n content fresh) (send_sync_data K2 n content fresh).
Proof.
  intros s1 s2 H. unfold send_sync_data. apply simat_get. cbv zeta.
  apply simat_bind; [apply data_of_app'| |].
  - apply idle_sim; try exact H; try intros s; destruct (_ && _); unfold stop_fetcher; rewrite ?mbind_mod; try (repeat split);
      cbn; destruct (f_fetcher s); reflexivity.
  - intros _. rewrite (sn_codec _ _ Sn), (sn_cscheme _ _ Sn).
    generalize (name_eqb (f_outstanding s1) n) (name_eqb (f_outstanding s2) n). intros o1 o2. clear s1 s2 H. intros s1 s2 H.
    apply simat_lift; [reflexivity|exact H|]. intros buf _.
    apply simat_bind; [apply data_of_app'|apply fpublish_sim, H|]. intros _.
    apply idle_sim; try intros s; try (destruct o1; [apply send_idle|apply idle_ret]); try (destruct o2; [apply send_idle|apply idle_ret]);
      [destruct o1|destruct o2]; try reflexivity; apply send_fine; assumption.
Qed.
Lemma mark_idle n : idle (mark_waiting n).
Proof. intros s. unfold mark_waiting. cbn. destruct (nm_find n (f_waiting s)); repeat split. Qed.
Lemma mark_fine n s : res (mark_waiting n s) = Ok tt.
Proof. reflexivity. Qed.
Lemma start_idle K n : idle (start_waiting K n).
Proof.
  intros s. unfold start_waiting, schedule_waiting. rewrite mbind_mod, mbind_get. destruct (f_waiting _); [repeat split|].
  destruct (f_delay _); repeat split.
Qed.
Lemma start_fine K n s : res (start_waiting K n s) = Ok tt.
Proof.
  unfold start_waiting, schedule_waiting. rewrite mbind_mod, mbind_get. destruct (f_waiting _); [reflexivity|].
  destruct (f_delay _); reflexivity.
Qed.
Lemma mark_sim n : fsim (mark_waiting n) (mark_waiting n).
Proof. apply idle_sim; auto using mark_idle, mark_fine. Qed.
Lemma fret_sim {A} (a : A) : fsim (mret a) (mret a).
Proof. apply sim_ret. reflexivity. Qed.
Lemma prefix_seq_sim p : fsim (prefix_seq p) (prefix_seq p).
Proof.
  intros s1 s2 H. unfold prefix_seq. apply simat_get. unfold get_seq. rewrite (cl_prefixes _ _ (fr_core _ _ H)).
  destruct (nm_find p (k_prefixes (f_core s2))) as [v|] eqn:E; [apply fret_sim, H|].
  apply simat_bind; [apply data_of_app'| |intros _; apply fret_sim].
  unfold fp_op. apply simat_get. cbn [cstep]. unfold simat. rewrite !mbind_lift, !mbind_mod. cbn [st outs res memit fst snd data_of].
  split; [|split; [constructor|reflexivity]]. destruct H as [[A1 A2 A3] B C F G]. unfold core_add.
  constructor; cbn [f_core f_pending fset_core]; try assumption; rewrite A2, E; [constructor|]; cbn [fst k_iblt k_prefixes k_bimap k_count]; congruence.
Qed.
Lemma future_sim p neg : fsim (is_future K1 p neg) (is_future K2 p neg).
Proof.
  intros s1 s2 H. unfold is_future. rewrite (Uk1 p), (Uk2 p). apply simat_lift; [reflexivity|exact H|]. intros u _.
  apply simat_bind; [apply data_of_app'|apply prefix_seq_sim, H|]. intros v. apply fret_sim.
Qed.
Lemma offered_sim neg hs : fsim (offered K1 neg hs) (offered K2 neg hs).
Proof.
  induction hs as [|h hs IH]; [apply fret_sim|]. cbn [offered]. intros s1 s2 H. apply simat_get.
  rewrite (cl_left _ _ (fr_core _ _ H)). destruct (bm_left h (k_bimap (f_core s2))) as [nm|]; [|apply IH, H].
  apply simat_bind; [apply data_of_app'|apply prefix_seq_sim, H|]. intros v.
  apply sim_bind; [apply data_of_app'|destruct (v =? 0); [apply fret_sim|apply future_sim]|]. intros skip.
  apply sim_bind; [apply data_of_app'|exact IH|]. intros l. apply fret_sim.
Qed.
Lemma fnack_sim n : fsim (fp_send_nack K1 n) (fp_send_nack K2 n).
Proof.
  intros s1 s2 H. unfold fp_send_nack. apply simat_get. rewrite (sn_codec _ _ Sn), (sn_scheme _ _ Sn), (cl_iblt _ _ (fr_core _ _ H)).
  apply simat_lift; [reflexivity|exact H|]. intros dn _. unfold simat. rewrite !mbind_mod. cbn [memit st outs res fst snd data_of].
  split; [destruct H; constructor; assumption|]. split; [|reflexivity]. constructor; [|constructor].
  unfold nack_data, alike. cbn [d_type d_content d_final d_fresh d_name]. rewrite (sn_fresh _ _ Sn). repeat (split; [reflexivity|]). left. reflexivity.
Qed.
Lemma undecodable_sim n rcvd d : fsim (on_undecodable K1 n false rcvd d) (on_undecodable K2 n false rcvd d).
Proof.
  intros s1 s2 H. unfold on_undecodable. apply simat_get. cbv zeta. rewrite (fr_count _ _ H).
  destruct (k_count (f_core s2) <? rcvd).
  - apply idle_sim; try exact H.
    + destruct (nm_find n (f_waiting s1)); [apply idle_ret|apply start_idle].
    + destruct (nm_find n (f_waiting s2)); [apply idle_ret|apply start_idle].
    + destruct (nm_find n (f_waiting s1)); [reflexivity|apply start_fine].
    + destruct (nm_find n (f_waiting s2)); [reflexivity|apply start_fine].
  - destruct (_ && _ && _); [apply fret_sim, H|]. unfold entire_state. rewrite (cl_prefixes _ _ (fr_core _ _ H)).
    apply simat_bind; [apply data_of_app'| |intros _; apply mark_sim].
    destruct (map _ _); [apply fret_sim, H|].
    apply simat_bind; [apply data_of_app'|apply data_sim, H|]. intros _. apply delete_sim.
Qed.
Lemma decoded_sim n l t d : fsim (on_decoded K1 n l false t d) (on_decoded K2 n l false t d).
Proof.
  intros s1 s2 H. unfold on_decoded. apply simat_get. cbv zeta.
  assert (fsimat (match nm_find n (f_waiting s1) with None => start_waiting K1 n | Some _ => mret tt end)
                 (match nm_find n (f_waiting s2) with None => start_waiting K2 n | Some _ => mret tt end) s1 s2) as Hw.
  { apply idle_sim; try exact H.
    + destruct (nm_find n (f_waiting s1)); [apply idle_ret|apply start_idle].
    + destruct (nm_find n (f_waiting s2)); [apply idle_ret|apply start_idle].
    + destruct (nm_find n (f_waiting s1)); [reflexivity|apply start_fine].
    + destruct (nm_find n (f_waiting s2)); [reflexivity|apply start_fine]. }
  destruct (positive d) as [|h pos] eqn:Ep; [destruct (negative d) as [|g neg] eqn:En|].
  - apply simat_bind; [apply data_of_app'| |intros _; apply fret_sim].
    split; [|split; [constructor|reflexivity]]. cbn [mmod st fst]. destruct H as [A B C F G].
    assert (forall e q, nm_sorted q -> nm_sorted (add_fpending n t e q)) as So
      by (intros e q Hq; unfold add_fpending; destruct (nm_find n q); apply nm_set_sorted; exact Hq).
    constructor; try assumption; [apply So; exact C|apply So; exact F|].
    intros r Hr. unfold same_node_request, add_fpending in *. cbn [f_pending fset_pending]. pose proof (G r Hr) as X.
    destruct (name_eqb r n) eqn:Q.
    + apply name_eqb_eq in Q. subst n.
      destruct (nm_find r (f_pending s1)), (nm_find r (f_pending s2)); try discriminate; rewrite !nm_find_set, name_eqb_refl; cbn in *; congruence.
    + destruct (nm_find n (f_pending s1)), (nm_find n (f_pending s2)); rewrite !nm_find_set, Q; exact X.
  - destruct (nm_find n (f_waiting s1)), (nm_find n (f_waiting s2)); exact Hw.
  - apply simat_bind; [apply data_of_app'|apply offered_sim, H|]. intros [|x names]; [apply fret_sim|].
    rewrite (sn_fresh _ _ Sn). apply sim_bind; [apply data_of_app'|apply data_sim|]. intros _. apply mark_sim.
Qed.
Lemma finterest_sim n l s1 s2 : frelated s1 s2 ->
  reply_from_store n (f_pub s1) = None -> reply_from_store n (f_pub s2) = None ->
  fsimat (fp_step K1 (FeInterest n l)) (fp_step K2 (FeInterest n l)) s1 s2.
Proof.
  intros H N1 N2. cbn [fp_step]. rewrite (sn_sync _ _ Sn). destruct (is_prefix _ n); [|apply fret_sim, H].
  unfold on_finterest. apply simat_get. rewrite N1, N2, (sn_sync _ _ Sn). cbv zeta.
  destruct (Nat.eqb _ 4); [apply fnack_sim, H|]. destruct (negb _); [apply fret_sim, H|].
  apply simat_lift; [reflexivity|exact H|]. intros c _. apply simat_lift; [reflexivity|exact H|]. intros c1 _.
  apply simat_lift; [reflexivity|exact H|]. intros rcvd _.
  rewrite (sn_codec _ _ Sn), (sn_scheme _ _ Sn), (sn_n _ _ Sn), (sn_fuel _ _ Sn), (cl_iblt _ _ (fr_core _ _ H)).
  destruct (initialize _ _ _ c) as [t [u|e|u|]]; try (apply fret_sim, H); try (apply sim_lift; [reflexivity|exact H]).
  apply simat_lift; [reflexivity|exact H|]. intros d _. destruct (can_decode d); [apply decoded_sim, H|apply undecodable_sim, H].
Qed.
Lemma fsatisfy_one_sim upd key : D key -> fsim (fsatisfy_one K1 upd key) (fsatisfy_one K2 upd key).
Proof.
  intros Dk s1 s2 H. unfold fsatisfy_one. apply simat_get. pose proof (fr_same _ _ H key Dk) as X. unfold same_node_request in X.
  destruct (nm_find key (f_pending s1)) as [e1|], (nm_find key (f_pending s2)) as [e2|]; try discriminate; [|apply fret_sim, H].
  injection X as X. rewrite X, (sn_fuel _ _ Sn), (cl_iblt _ _ (fr_core _ _ H)). apply simat_lift; [reflexivity|exact H|]. intros d _.
  unfold satisfy_content. rewrite (lookup_like _ _ (positive d) (cl_left _ _ (fr_core _ _ H))), (sn_fresh _ _ Sn).
  apply simat_bind; [apply data_of_app'|apply data_sim, H|]. intros _. apply delete_sim.
Qed.
Lemma fsatisfy_sim upd keys : Forall D keys -> fsim (fsatisfy K1 upd keys) (fsatisfy K2 upd keys).
Proof.
  induction 1 as [|key keys Hk _ IH]; [apply fret_sim|]. cbn [fsatisfy].
  apply sim_bind; [apply data_of_app'|apply fsatisfy_one_sim, Hk|]. intros _. exact IH.
Qed.
Lemma fpublication_sim n ops1 ops2 s1 s2 p q : (forall r, D r) ->
  Forall cop_wf ops1 -> Forall cop_wf ops2 -> cop_wf (CPublish p q) ->
  crun (core_new n) ops1 = Ok (f_core s1) -> crun (core_new n) ops2 = Ok (f_core s2) ->
  collision_free n (ops1 ++ [CPublish p q]) -> collision_free n (ops2 ++ [CPublish p q]) -> frelated s1 s2 ->
  fsimat (fp_step K1 (FeApi (APublish p q))) (fp_step K2 (FeApi (APublish p q))) s1 s2.
Proof.
  intros All W1 W2 Wq R1 R2 C1 C2 H. pose proof (publish_like n ops1 ops2 _ _ p q W1 W2 Wq R1 R2 C1 C2 (fr_core _ _ H)) as X.
  cbn [fp_step api_call]. unfold fp_publish_name. apply simat_get.
  assert (nm_keys (f_pending s1) = nm_keys (f_pending s2)) as Ky.
  { apply (same_keys fe_iblt); [apply H|apply H|]. intros r. apply (fr_same _ _ H r (All r)). }
  rewrite Ky. unfold get_seq. rewrite (cl_prefixes _ _ (fr_core _ _ H)). destruct (nm_find p (k_prefixes (f_core s2))) as [cur|]; [|apply fret_sim, H].
  apply simat_bind; [apply data_of_app'| |].
  - unfold fp_op. apply simat_get. cbn [cstep].
    destruct (core_publish p q (f_core s1)) as [[a v]|e|u|], (core_publish p q (f_core s2)) as [[b v']|e'|u'|]; try contradiction; cbn [omap obind].
    2-4: unfold simat; cbn; repeat split; try apply H; try constructor; congruence.
    destruct X as (_ & X & Y). unfold simat. rewrite !mbind_lift, !mbind_mod. cbn [fst snd memit st outs res data_of].
    split; [destruct H; constructor; cbn; auto|]. split; [constructor|reflexivity].
  - intros _. apply sim_bind; [apply data_of_app'| |].
    + apply sim_mod; [reflexivity|]. intros a b [A B C F G]. constructor; assumption.
    + intros _. apply fsatisfy_sim. apply Forall_forall. intros. apply All.
Qed.
End Full.
