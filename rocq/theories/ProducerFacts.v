(** Facts about ProducerBase. *)
From Coq Require Import List NArith ZArith Bool Lia Arith Permutation.
From Verif Require Import Base BaseFacts Murmur MurmurFacts Iblt IbltFacts SpecIblt HonestFacts IbltProps
  CodecFacts Tlv TlvFacts NMap NMapFacts Producer SpecProducer.
Import ListNotations.
Local Open Scope N_scope.
Global Opaque murmur.

(** ** Building the IBF of a key set from any history with the right net effect *)
Lemma insert_all_app t a b : insert_all t (a ++ b) = obind (insert_all t a) (fun u => insert_all u b).
Proof.
  revert t; induction a as [|k a IH]; intros t; simpl; auto.
  destruct (iblt_insert t k); simpl; auto.
Qed.
Lemma c_count_cadd a b : c_count (cadd a b) = (c_count a + c_count b)%Z.
Proof. reflexivity. Qed.
Lemma csum_pos1_nonneg m l j : (0 <= c_count (csum m (pos1 l) j))%Z.
Proof.
  induction l as [|k l IH]; [simpl; lia|]. unfold pos1 in *. cbn [map csum]. rewrite c_count_cadd.
  assert (0 <= c_count (kcell m 1 k j))%Z by (unfold kcell; destruct (hit m k j); simpl; lia).
  lia.
Qed.
Lemma insert_all_bounded n ks :
  (ks <> [] -> n <> 0%nat) ->
  (forall j, (c_count (csum (n_entries n) (pos1 ks) j) <= i32_max)%Z) ->
  exists t, IbfOf n ks t.
Proof.
  intros Hn Hb. unfold IbfOf.
  assert (forall b a u, ks = a ++ b -> insert_all (iblt_new n) a = Ok u ->
            exists t, insert_all u b = Ok t) as H.
  { induction b as [|k b IH]; intros a u Hk Hu; simpl; [eauto|].
    destruct (IbfOf_cells n a u Hu) as (L & _ & W & C).
    assert (n_entries n / 3 <> 0)%nat as Hd.
    { apply n_entries_div. apply Hn. rewrite Hk. destruct a; discriminate. }
    destruct (iblt_update_total u 1 k) as [t1 E].
    - rewrite L. exact Hd.
    - rewrite L. intros j Hh. apply in_i32_iff. specialize (Hb j). rewrite Hk in Hb. unfold pos1 in Hb.
      rewrite map_app in Hb. fold (pos1 a) in Hb. rewrite csum_app in Hb. cbn [map csum] in Hb.
      rewrite !c_count_cadd in Hb.
      pose proof (csum_pos1_nonneg (n_entries n) a j). pose proof (csum_pos1_nonneg (n_entries n) b j) as Hp.
      unfold pos1 in Hp. rewrite C. unfold kcell in Hb. rewrite Hh in Hb. cbn [c_count] in Hb.
      unfold i32_min. lia.
    - unfold iblt_insert. rewrite E. cbn [obind].
      apply (IH (a ++ [k])); [rewrite <- app_assoc; exact Hk|].
      rewrite insert_all_app, Hu. cbn [obind insert_all]. unfold iblt_insert. rewrite E. reflexivity. }
  apply (H ks []); reflexivity.
Qed.
Lemma snet_pos1 k l : NoDup l -> snet k (pos1 l) = if nset_mem k l then 1%Z else 0%Z.
Proof.
  induction 1 as [|x l Hx Hn IH]; [reflexivity|]. unfold pos1 in *. cbn [map snet nset_mem fst snd].
  rewrite IH. destruct (N.eqb_spec k x) as [->|Hne]; cbn [orb].
  - destruct (nset_mem x l) eqn:E; [|reflexivity]. exfalso. apply Hx.
    clear -E. induction l as [|y l IH]; simpl in E; [discriminate|].
    apply orb_prop in E as [E|E]; [left; symmetry; apply N.eqb_eq; auto|right; auto].
  - lia.
Qed.
Lemma IbfOf_of_net n ops t ks :
  run_ops (iblt_new n) ops = Ok t -> NoDup ks ->
  (forall k, net k ops = if nset_mem k ks then 1%Z else 0%Z) -> IbfOf n ks t.
Proof.
  intros Hr Hn Hnet.
  assert (Hs : forall k, snet k (map op_skey ops) = snet k (pos1 ks)).
  { intros k. rewrite <- net_snet, Hnet, snet_pos1; auto. }
  assert (Hsg : signs_ok (pos1 ks)).
  { apply Forall_forall. intros x Hx. apply in_map_iff in Hx as (y & <- & _). left. reflexivity. }
  pose proof Hr as Hr'. rewrite run_ops_run in Hr'.
  pose proof (iblt_run_wf _ _ _ (iblt_new_wf n) Hr') as W.
  apply iblt_run_ok in Hr' as (L & Hm & C). rewrite iblt_new_length in *.
  assert (Hc : forall j, cell_at t j = csum (n_entries n) (pos1 ks) j).
  { intros j. rewrite C, iblt_new_cell, cadd_0_l. apply csum_net_eq; auto using op_skey_signs. }
  destruct (insert_all_bounded n ks) as (u & Hu).
  - intros Hk Hn0. subst n. destruct ks as [|k ks]; [auto|].
    apply Hm; [|reflexivity]. intros Ho. apply map_eq_nil in Ho. subst ops.
    specialize (Hnet k). simpl in Hnet. rewrite N.eqb_refl in Hnet. discriminate.
  - intros j. rewrite <- Hc. specialize (W j). apply in_i32_iff in W. lia.
  - assert (t = u) as ->; [|exact Hu].
    destruct (IbfOf_cells _ _ _ Hu) as (L' & _ & _ & C'). apply table_ext; [congruence|].
    intros j _. rewrite Hc, C'. reflexivity.
Qed.

(** ** bimap *)
Lemma bm_left_In h n b : bm_left h b = Some n -> In (h, n) b.
Proof.
  induction b as [|[h' n'] b IH]; simpl; [discriminate|].
  destruct (N.eqb_spec h h') as [->|]; [intros [= ->]; auto|auto].
Qed.
Lemma bm_left_None h b : bm_left h b = None <-> ~ In h (map fst b).
Proof.
  induction b as [|[h' n'] b IH]; simpl; [tauto|].
  destruct (N.eqb_spec h h') as [->|Hne]; [split; [discriminate|tauto]|].
  rewrite IH. split; [intros H [E|E]; [congruence|tauto]|tauto].
Qed.
Lemma bm_right_In h n b : bm_right n b = Some h -> In (h, n) b.
Proof.
  induction b as [|[h' n'] b IH]; simpl; [discriminate|].
  destruct (name_eqb n n') eqn:E; [apply name_eqb_eq in E; subst; intros [= ->]; auto|auto].
Qed.
Lemma bm_right_None n b : bm_right n b = None <-> ~ In n (map snd b).
Proof.
  induction b as [|[h' n'] b IH]; simpl; [tauto|].
  destruct (name_eqb n n') eqn:E.
  - apply name_eqb_eq in E. subst. split; [discriminate|tauto].
  - apply name_eqb_neq in E. rewrite IH. split; [intros H [X|X]; [congruence|tauto]|tauto].
Qed.
Lemma In_bm_right h n b : NoDup (map snd b) -> In (h, n) b -> bm_right n b = Some h.
Proof.
  induction b as [|[h' n'] b IH]; simpl; [contradiction|]. intros Hn [E|E].
  - injection E as -> ->. rewrite name_eqb_refl. reflexivity.
  - inversion Hn; subst. destruct (name_eqb n n') eqn:Q; auto.
    apply name_eqb_eq in Q. subst. exfalso. apply H1. apply in_map_iff. exists (h, n'). auto.
Qed.
Lemma In_bm_left h n b : NoDup (map fst b) -> In (h, n) b -> bm_left h b = Some n.
Proof.
  induction b as [|[h' n'] b IH]; simpl; [contradiction|]. intros Hn [E|E].
  - injection E as -> ->. rewrite N.eqb_refl. reflexivity.
  - inversion Hn; subst. destruct (N.eqb_spec h h') as [->|]; auto.
    exfalso. apply H1. apply in_map_iff. exists (h', n). auto.
Qed.
Lemma bm_erase_In h n m b :
  NoDup (map snd b) -> (In (h, n) (bm_erase_right m b) <-> In (h, n) b /\ n <> m).
Proof.
  induction b as [|[h' n'] b IH]; simpl; intros Hn; [tauto|]. inversion Hn; subst.
  destruct (name_eqb m n') eqn:E.
  - apply name_eqb_eq in E. subst. split.
    + intros H. split; [auto|]. intros ->. apply H1. apply in_map_iff. exists (h, n'). auto.
    + intros [[H|H] Hne]; [injection H as -> ->; congruence|auto].
  - apply name_eqb_neq in E. simpl. rewrite IH by auto. split.
    + intros [H|[H Hm]]; [injection H as -> ->; split; auto; congruence|auto].
    + tauto.
Qed.
Lemma bm_erase_NoDup m b : NoDup (map snd b) -> NoDup (map snd (bm_erase_right m b)).
Proof.
  induction b as [|[h n] b IH]; simpl; intros Hn; auto. inversion Hn; subst.
  destruct (name_eqb m n); auto. simpl. constructor; auto.
  intros H. apply H1. apply in_map_iff in H as ([h' n'] & E & H). simpl in E. subst.
  apply bm_erase_In in H as [H _]; auto. apply in_map_iff. exists (h', n). auto.
Qed.

(** ** The IBF and the bimap represent a set of names with pairwise different hashes *)
Definition hash_inj (L : name -> Prop) : Prop :=
  forall a b, L a -> L b -> name_hash a = name_hash b -> a = b.

Record rep (n : nat) (L : name -> Prop) (t : table) (b : bimap) : Prop := mkRep {
  rep_in : forall h m, In (h, m) b <-> L m /\ h = name_hash m;
  rep_nodup : NoDup (map snd b);
  rep_inj : hash_inj L;
  rep_ops : exists ops, run_ops (iblt_new n) ops = Ok t /\ keys32 (map op_key ops) /\
    forall x, (exists m, L m /\ x = name_hash m /\ net x ops = 1%Z) \/
              ((forall m, L m -> x <> name_hash m) /\ net x ops = 0%Z) }.

Lemma rep_ext n L L' t b : (forall m, L m <-> L' m) -> rep n L t b -> rep n L' t b.
Proof.
  intros H [R1 R2 R3 (ops & R4 & R5 & R6)]. split; auto.
  - intros h m. rewrite R1. rewrite H. reflexivity.
  - intros a c Ha Hc. apply R3; apply H; auto.
  - exists ops. split; auto. split; auto. intros x. destruct (R6 x) as [(m & A & B & C)|(A & B)].
    + left. exists m. rewrite <- H. auto.
    + right. split; auto. intros m Hm. apply A. apply H. auto.
Qed.
Lemma rep_empty n : rep n (fun _ => False) (iblt_new n) [].
Proof.
  split; [simpl; tauto|constructor|intros a b []|].
  exists []. split; [reflexivity|split; [constructor|]]. intros x. right. split; [contradiction|reflexivity].
Qed.
Lemma rep_fst_nodup n L t b : rep n L t b -> NoDup (map fst b).
Proof.
  intros [R1 R2 R3 _].
  assert (forall x, In x b -> fst x = name_hash (snd x) /\ L (snd x)) as H.
  { intros [h m] Hx. apply R1 in Hx. simpl. tauto. }
  clear R1. induction b as [|x b IH]; simpl; constructor.
  - intros Hx. apply in_map_iff in Hx as (y & E & Hy).
    inversion R2; subst. apply H2.
    destruct (H x (or_introl eq_refl)) as (A & B). destruct (H y (or_intror Hy)) as (C & D).
    rewrite (R3 (snd x) (snd y)); auto; [|congruence]. apply in_map. exact Hy.
  - inversion R2; subst. apply IH; auto. intros y Hy. apply H. right. exact Hy.
Qed.
Lemma rep_lookup n L t b h m : rep n L t b -> (bm_left h b = Some m <-> L m /\ h = name_hash m).
Proof.
  intros R. rewrite <- (rep_in _ _ _ _ R). split; [apply bm_left_In|].
  apply In_bm_left. eapply rep_fst_nodup; eauto.
Qed.
Lemma rep_right n L t b m : rep n L t b -> L m -> bm_right m b = Some (name_hash m).
Proof.
  intros R H. apply In_bm_right; [apply R|]. apply (rep_in _ _ _ _ R). auto.
Qed.
Lemma rep_right_none n L t b m : rep n L t b -> ~ L m -> bm_right m b = None.
Proof.
  intros R H. apply bm_right_None. intros X. apply in_map_iff in X as ([h m'] & E & X).
  simpl in E. subst. apply (rep_in _ _ _ _ R) in X. tauto.
Qed.
Lemma run_ops_snoc t ops o :
  run_ops t (ops ++ [o]) = obind (run_ops t ops) (fun u =>
    match o with Ins k => iblt_insert u k | Era k => iblt_erase u k end).
Proof.
  revert t; induction ops as [|x ops IH]; intros t; simpl.
  - destruct o; [destruct (iblt_insert t k)|destruct (iblt_erase t k)]; reflexivity.
  - destruct x; [destruct (iblt_insert t k)|destruct (iblt_erase t k)]; simpl; auto.
Qed.
Lemma net_app x a b : net x (a ++ b) = (net x a + net x b)%Z.
Proof. rewrite !net_snet, map_app, snet_app. reflexivity. Qed.
Lemma name_hash_lt m : name_hash m < two32.
Proof. apply murmur_lt. reflexivity. Qed.

Lemma rep_erase n L t b m t' :
  rep n L t b -> L m -> iblt_erase t (name_hash m) = Ok t' ->
  rep n (fun x => L x /\ x <> m) t' (bm_erase_right m b).
Proof.
  intros [R1 R2 R3 (ops & R4 & R5 & R6)] Hm He. split.
  - intros h x. rewrite bm_erase_In by auto. rewrite R1. tauto.
  - apply bm_erase_NoDup. auto.
  - intros x y [Hx _] [Hy _]. apply R3; auto.
  - exists (ops ++ [Era (name_hash m)]). split; [rewrite run_ops_snoc, R4; exact He|]. split.
    { unfold keys32 in *. rewrite map_app. apply Forall_app. split; auto. constructor; [|constructor].
      apply name_hash_lt. }
    intros x. rewrite net_app. cbn [net]. destruct (N.eqb_spec x (name_hash m)) as [->|Hne].
    + right. split.
      * intros y [Hy Hne] E. apply Hne. symmetry. apply R3; auto.
      * destruct (R6 (name_hash m)) as [(y & A & B & ->)|(A & _)]; [reflexivity|].
        exfalso. apply (A m); auto.
    + destruct (R6 x) as [(y & A & B & ->)|(A & ->)].
      * left. exists y. split; [|split; auto]. split; auto. congruence.
      * right. split; [|reflexivity]. intros y [Hy _]. auto.
Qed.
Lemma rep_insert n L t b m t' :
  rep n L t b -> (forall y, L y -> name_hash y <> name_hash m) ->
  iblt_insert t (name_hash m) = Ok t' ->
  rep n (fun x => L x \/ x = m) t' (bm_insert (name_hash m) m b).
Proof.
  intros R Hm Hi. pose proof R as [R1 R2 R3 (ops & R4 & R5 & R6)].
  assert (bm_left (name_hash m) b = None) as El.
  { apply bm_left_None. intros X. apply in_map_iff in X as ([h y] & E & X). simpl in E. subst.
    apply R1 in X as [X E]. apply (Hm y X). congruence. }
  assert (~ L m) as Hnm by (intros X; apply (Hm m X); reflexivity).
  assert (bm_right m b = None) as Er by (eapply rep_right_none; eauto).
  unfold bm_insert. rewrite El, Er. split.
  - intros h x. simpl. rewrite R1. split.
    + intros [X|X]; [injection X as <- <-; auto|tauto].
    + intros [[X| ->] ->]; auto.
  - simpl. constructor; auto. apply bm_right_None. exact Er.
  - intros x y [Hx| ->] [Hy| ->] E; auto; exfalso; [apply (Hm x Hx E)|apply (Hm y Hy); congruence].
  - exists (ops ++ [Ins (name_hash m)]). split; [rewrite run_ops_snoc, R4; exact Hi|]. split.
    { unfold keys32 in *. rewrite map_app. apply Forall_app. split; auto. constructor; [|constructor].
      apply name_hash_lt. }
    intros x. rewrite net_app. cbn [net]. destruct (N.eqb_spec x (name_hash m)) as [->|Hne].
    + left. exists m. split; [auto|split; [auto|]].
      destruct (R6 (name_hash m)) as [(y & A & B & _)|(_ & ->)]; [|reflexivity].
      exfalso. apply (Hm y A). congruence.
    + destruct (R6 x) as [(y & A & B & ->)|(A & ->)].
      * left. exists y. auto.
      * right. split; [|reflexivity]. intros y [Hy| ->]; auto.
Qed.

(** ** Live names *)
Definition livep (m : nmap N) (nm : name) : Prop :=
  exists p s, nm_find p m = Some s /\ s <> 0 /\ nm = append_number p s.
Lemma live_names_In m nm : nm_sorted m -> (In nm (live_names m) <-> livep m nm).
Proof.
  intros Hs. unfold live_names. rewrite in_map_iff. split.
  - intros ([p s] & <- & H). apply filter_In in H as [H E]. simpl in *.
    apply negb_true_iff, N.eqb_neq in E. exists p, s. split; [apply nm_In_find|]; auto.
  - intros (p & s & H & E & ->). exists (p, s). split; [reflexivity|]. apply filter_In. split.
    + apply nm_find_In. exact H.
    + apply negb_true_iff, N.eqb_neq. exact E.
Qed.
Definition bounded (m : nmap N) : Prop := forall p s, nm_find p m = Some s -> s < two64.
Lemma live_names_NoDup m : nm_sorted m -> bounded m -> NoDup (live_names m).
Proof.
  intros Hs Hb. unfold live_names.
  assert (forall l, NoDup l -> (forall x, In x l -> In x m) ->
    NoDup (map (fun x => append_number (fst x) (snd x)) l)) as H.
  { induction 1 as [|[p s] l Hx Hn IH]; intros Hi; simpl; constructor.
    - intros X. apply in_map_iff in X as ([q u] & E & X). simpl in E.
      assert (nm_find p m = Some s) as Fp by (apply nm_In_find; auto; apply Hi; simpl; auto).
      assert (nm_find q m = Some u) as Fq by (apply nm_In_find; auto; apply Hi; simpl; auto).
      apply append_number_inj in E as [-> ->]; eauto.
    - apply IH. intros x Hx'. apply Hi. simpl. auto. }
  apply H.
  - apply NoDup_filter. apply nm_sorted_NoDup in Hs. eapply NoDup_map_inv. exact Hs.
  - intros x Hx. apply filter_In in Hx. tauto.
Qed.
Lemma NoDup_map_inj_on {A B} (f : A -> B) l : NoDup (map f l) ->
  forall x y, In x l -> In y l -> f x = f y -> x = y.
Proof.
  induction l as [|a l IH]; simpl; intros H x y; [contradiction|]. inversion H; subst.
  intros [<-|Hx] [<-|Hy] E; auto.
  - exfalso. apply H2. rewrite E. apply in_map. auto.
  - exfalso. apply H2. rewrite <- E. apply in_map. auto.
Qed.
Lemma hash_inj_live m : nm_sorted m -> NoDup (map name_hash (live_names m)) -> hash_inj (livep m).
Proof.
  intros Hs Hn a b Ha Hb E. eapply NoDup_map_inj_on; eauto; apply live_names_In; auto.
Qed.

(** ** Invariant of a producer without hash collisions *)
Record core_ok (n : nat) (k : core) : Prop := mkCoreOk {
  ok_sorted : nm_sorted (k_prefixes k);
  ok_bounded : bounded (k_prefixes k);
  ok_rep : rep n (livep (k_prefixes k)) (k_iblt k) (k_bimap k) }.

Lemma core_new_ok n : core_ok n (core_new n).
Proof.
  split; [apply nm_sorted_nil|intros p s H; discriminate|].
  eapply rep_ext; [|apply rep_empty]. intros m. split; [contradiction|].
  intros (p & s & H & _). discriminate.
Qed.

Lemma core_forget_prefixes nm k k' : core_forget nm k = Ok k' ->
  k_prefixes k' = k_prefixes k /\ k_count k' = k_count k.
Proof.
  unfold core_forget. destruct (bm_right nm (k_bimap k)) as [h|]; [|intros [= <-]; auto].
  intros H. apply obind_ok in H as (t & _ & H). injection H as <-. auto.
Qed.

Lemma bounded_set m p s : bounded m -> s < two64 -> bounded (nm_set p s m).
Proof.
  intros Hb Hs q u H. rewrite nm_find_set in H. destruct (name_eqb q p); [congruence|eauto].
Qed.
Lemma nm_set_sorted' (m : nmap N) p s : nm_sorted m -> nm_sorted (nm_set p s m).
Proof. apply nm_set_sorted. Qed.

Lemma core_add_ok n p k : core_ok n k -> core_ok n (fst (core_add p k)).
Proof.
  intros [S B R]. unfold core_add. destruct (nm_find p (k_prefixes k)) eqn:E; [split; auto|].
  cbn [fst]. split; cbn [k_prefixes k_iblt k_bimap].
  - apply nm_set_sorted. auto.
  - apply bounded_set; auto. reflexivity.
  - eapply rep_ext; [|exact R]. intros m. split.
    + intros (q & s & H & Hs & ->). exists q, s. split; [|auto]. rewrite nm_find_set.
      destruct (name_eqb q p) eqn:Q; [apply name_eqb_eq in Q; subst; congruence|auto].
    + intros (q & s & H & Hs & ->). rewrite nm_find_set in H.
      destruct (name_eqb q p) eqn:Q; [injection H as <-; congruence|]. exists q, s. auto.
Qed.
Lemma core_remove_ok n p k k' : core_ok n k -> core_remove p k = Ok k' -> core_ok n k'.
Proof.
  intros [S B R] H. unfold core_remove in H.
  destruct (nm_find p (k_prefixes k)) as [s|] eqn:E; [|injection H as <-; split; auto].
  assert (bounded (nm_erase p (k_prefixes k))) as B'.
  { intros q u Hq. rewrite nm_find_erase in Hq by auto. destruct (name_eqb q p); [discriminate|eauto]. }
  assert (nm_sorted (nm_erase p (k_prefixes k))) as S' by (apply nm_erase_sorted; auto).
  assert (s < two64) as Hs by eauto.
  assert (Hl : forall m, (livep (k_prefixes k) m /\ m <> append_number p s) <->
                         livep (nm_erase p (k_prefixes k)) m).
  { intros m. split.
    - intros [(q & u & F & Hu & ->) Hne]. exists q, u. split; [|auto].
      rewrite nm_find_erase by auto. destruct (name_eqb q p) eqn:Q; auto.
      apply name_eqb_eq in Q. subst q. assert (u = s) by congruence. subst. congruence.
    - intros (q & u & F & Hu & ->). rewrite nm_find_erase in F by auto.
      destruct (name_eqb q p) eqn:Q; [discriminate|]. split; [exists q, u; auto|].
      intros X. apply append_number_inj in X as [-> _]; eauto.
      rewrite name_eqb_refl in Q. discriminate. }
  unfold core_forget in H. cbn [k_bimap k_iblt k_prefixes k_count] in H.
  destruct (N.eq_dec s 0) as [->|Hs0].
  - assert (~ livep (k_prefixes k) (append_number p 0)) as Hnl.
    { intros (q & u & F & Hu & X). apply append_number_inj in X as [-> <-]; eauto. }
    rewrite (rep_right_none _ _ _ _ _ R Hnl) in H. injection H as <-. split; auto.
    eapply rep_ext; [|exact R]. intros m. cbn [k_prefixes]. rewrite <- Hl. split; [|tauto].
    intros X. split; auto. intros ->. auto.
  - assert (livep (k_prefixes k) (append_number p s)) as Hlv by (exists p, s; auto).
    rewrite (rep_right _ _ _ _ _ R Hlv) in H. apply obind_ok in H as (t & He & H).
    injection H as <-. split; auto. cbn [k_prefixes k_iblt k_bimap].
    eapply rep_ext; [exact Hl|]. apply (rep_erase n _ _ _ _ _ R Hlv He).
Qed.
Lemma core_update_ok n p s k k' :
  core_ok n k -> s < two64 -> core_update p s k = Ok k' ->
  hash_inj (livep (k_prefixes k')) -> core_ok n k'.
Proof.
  intros [S B R] Hs H Hinj. unfold core_update in H.
  destruct (nm_find p (k_prefixes k)) as [old|] eqn:E; [|injection H as <-; split; auto].
  destruct (N.leb_spec s old) as [Hle|Hlt]; [injection H as <-; split; auto|].
  assert (old < two64) as Ho by eauto.
  assert (exists k1, (if old =? 0 then Ok k else core_forget (append_number p old) k) = Ok k1 /\
            k_prefixes k1 = k_prefixes k /\
            rep n (fun x => livep (k_prefixes k) x /\ x <> append_number p old)
                (k_iblt k1) (k_bimap k1)) as (k1 & E1 & P1 & R1).
  { destruct (N.eqb_spec old 0) as [->|Hne].
    - exists k. split; auto. split; auto. eapply rep_ext; [|exact R]. intros m. split; [|tauto].
      intros X. split; auto. intros ->. destruct X as (q & u & F & Hu & X).
      apply append_number_inj in X as [-> <-]; eauto.
    - assert (livep (k_prefixes k) (append_number p old)) as Hlv by (exists p, old; auto).
      pose proof (rep_right _ _ _ _ _ R Hlv) as Er.
      apply obind_ok in H as (k1 & E1 & _). pose proof E1 as E1'. unfold core_forget in E1.
      rewrite Er in E1. apply obind_ok in E1 as (t & He & E1). injection E1 as <-.
      exists (mkCore t (k_prefixes k) (bm_erase_right (append_number p old) (k_bimap k)) (k_count k)).
      split; auto. split; auto. apply (rep_erase n _ _ _ _ _ R Hlv He). }
  rewrite E1 in H. cbn [obind] in H. apply obind_ok in H as (t & Hi & H). injection H as <-.
  cbn [k_prefixes] in Hinj. rewrite P1 in Hinj |- *.
  assert (Hl : forall m, ((livep (k_prefixes k) m /\ m <> append_number p old) \/ m = append_number p s)
                         <-> livep (nm_set p s (k_prefixes k)) m).
  { intros m. split.
    - intros [[(q & u & F & Hu & ->) Hne]| ->].
      + exists q, u. split; [|auto]. rewrite nm_find_set. destruct (name_eqb q p) eqn:Q; auto.
        apply name_eqb_eq in Q. subst q. assert (u = old) by congruence. subst. congruence.
      + exists p, s. rewrite nm_find_set_same. split; [auto|split; [lia|auto]].
    - intros (q & u & F & Hu & ->). rewrite nm_find_set in F. destruct (name_eqb q p) eqn:Q.
      + apply name_eqb_eq in Q. injection F as <-. subst. auto.
      + left. split; [exists q, u; auto|]. intros X. apply append_number_inj in X as [-> _]; eauto.
        rewrite name_eqb_refl in Q. discriminate. }
  split; cbn [k_prefixes k_iblt k_bimap].
  - apply nm_set_sorted. auto.
  - apply bounded_set; auto.
  - eapply rep_ext; [exact Hl|]. apply rep_insert with (1 := R1); auto.
    intros y [Hy Hne] Hh.
    assert (y = append_number p s) as ->.
    { apply Hinj; auto; apply Hl; auto. }
    destruct Hy as (q & u & F & Hu & X). apply append_number_inj in X as [-> ->]; eauto.
    assert (u = old) by congruence. lia.
Qed.
Lemma publish_seq_lt cur s : (forall v, s = Some v -> v < two64) -> publish_seq cur s < two64.
Proof.
  destruct s as [v|]; intros H; cbn; auto. apply N.mod_lt. discriminate.
Qed.
Lemma core_publish_update p s k :
  core_publish p s k = match nm_find p (k_prefixes k) with
    | None => Ok (k, None)
    | Some cur => omap (fun k' => (k', Some (publish_seq cur s))) (core_update p (publish_seq cur s) k)
    end.
Proof. reflexivity. Qed.
Lemma cstep_ok n k o k' :
  core_ok n k -> cop_wf o -> cstep k o = Ok k' -> hash_inj (livep (k_prefixes k')) -> core_ok n k'.
Proof.
  intros Hk Hw H Hi. destruct o as [p|p|p s|p s]; cbn [cstep] in H.
  - injection H as <-. apply core_add_ok. auto.
  - eapply core_remove_ok; eauto.
  - eapply core_update_ok; eauto.
  - rewrite core_publish_update in H. destruct (nm_find p (k_prefixes k)) as [cur|].
    + unfold omap in H. apply obind_ok in H as (r & H1 & H). apply obind_ok in H1 as (k1 & H1 & H2).
      injection H2 as <-. injection H as <-. cbn [fst] in *. eapply core_update_ok; eauto.
      apply publish_seq_lt. intros v ->. exact Hw.
    + injection H as <-. auto.
Qed.
(** sortedness and bounds need no hypothesis on hashes *)
Lemma core_update_prefixes p s k k' : core_update p s k = Ok k' ->
  k_prefixes k' = match nm_find p (k_prefixes k) with
    | Some old => if s <=? old then k_prefixes k else nm_set p s (k_prefixes k)
    | None => k_prefixes k end.
Proof.
  unfold core_update. destruct (nm_find p (k_prefixes k)) as [old|]; [|intros [= <-]; auto].
  destruct (s <=? old); [intros [= <-]; auto|]. intros H.
  apply obind_ok in H as (k1 & H1 & H). apply obind_ok in H as (t & _ & H). injection H as <-.
  cbn [k_prefixes]. destruct (old =? 0); [injection H1 as <-; auto|].
  apply core_forget_prefixes in H1 as [-> _]. auto.
Qed.
Lemma core_remove_prefixes p k k' : core_remove p k = Ok k' ->
  k_prefixes k' = nm_erase p (k_prefixes k).
Proof.
  unfold core_remove. destruct (nm_find p (k_prefixes k)) as [s|] eqn:E.
  - intros H. apply core_forget_prefixes in H as [-> _]. reflexivity.
  - intros [= <-]. symmetry. apply nm_erase_absent. auto.
Qed.
Lemma core_add_prefixes p k : k_prefixes (fst (core_add p k)) = nm_emplace p 0 (k_prefixes k).
Proof. unfold core_add, nm_emplace. destruct (nm_find p (k_prefixes k)); reflexivity. Qed.

Definition pfx_ok (m : nmap N) : Prop := nm_sorted m /\ bounded m.
Lemma cstep_pfx k o k' :
  pfx_ok (k_prefixes k) -> cop_wf o -> cstep k o = Ok k' -> pfx_ok (k_prefixes k').
Proof.
  intros [Hs Hb] Hw H.
  assert (U : forall p s k', s < two64 -> core_update p s k = Ok k' -> pfx_ok (k_prefixes k')).
  { intros p s k1 Hlt H1. rewrite (core_update_prefixes _ _ _ _ H1).
    destruct (nm_find p (k_prefixes k)) as [old|]; [destruct (s <=? old)|]; split; auto.
    - apply nm_set_sorted; auto.
    - apply bounded_set; auto. }
  destruct o as [p|p|p s|p s]; cbn [cstep] in H.
  - injection H as <-. rewrite core_add_prefixes. split; [apply nm_emplace_sorted; auto|].
    unfold nm_emplace. destruct (nm_find p (k_prefixes k)); auto. apply bounded_set; auto. reflexivity.
  - rewrite (core_remove_prefixes _ _ _ H). split; [apply nm_erase_sorted; auto|].
    intros q u Hq. rewrite nm_find_erase in Hq by auto. destruct (name_eqb q p); [discriminate|eauto].
  - eapply U; eauto.
  - rewrite core_publish_update in H. destruct (nm_find p (k_prefixes k)) as [cur|].
    + unfold omap in H. apply obind_ok in H as (r & H1 & H). apply obind_ok in H1 as (k1 & H1 & H2).
      injection H2 as <-. injection H as <-. cbn [fst] in *. eapply U; eauto.
      apply publish_seq_lt. intros v ->. exact Hw.
    + injection H as <-. split; auto.
Qed.
Lemma crun_app k a b : crun k (a ++ b) = obind (crun k a) (fun k' => crun k' b).
Proof.
  revert k; induction a as [|o a IH]; intros k; simpl; auto. destruct (cstep k o); simpl; auto.
Qed.
Lemma crun_pfx ops : forall k k', pfx_ok (k_prefixes k) -> Forall cop_wf ops ->
  crun k ops = Ok k' -> pfx_ok (k_prefixes k').
Proof.
  induction ops as [|o ops IH]; intros k k' Hk Hw H; simpl in H; [injection H as <-; auto|].
  inversion Hw; subst. apply obind_ok in H as (k1 & H1 & H). eapply IH; [|auto|exact H].
  eapply cstep_pfx; eauto.
Qed.
Lemma core_new_pfx n : pfx_ok (k_prefixes (core_new n)).
Proof. split; [apply nm_sorted_nil|intros p s H; discriminate]. Qed.

Lemma crun_ok n ops k :
  Forall cop_wf ops -> crun (core_new n) ops = Ok k -> collision_free n ops -> core_ok n k.
Proof.
  revert k. induction ops as [|o ops IH] using rev_ind; intros k Hw H Hc.
  - injection H as <-. apply core_new_ok.
  - rewrite crun_app in H. apply obind_ok in H as (k1 & H1 & H). simpl in H.
    apply obind_ok in H as (k2 & H2 & H). injection H as <-.
    apply Forall_app in Hw as [Hw Hw']. inversion Hw'; subst.
    assert (core_ok n k1) as Hk1.
    { apply IH; auto. intros pre post k -> Hk. apply (Hc pre (post ++ [o])); auto.
      rewrite app_assoc. reflexivity. }
    eapply cstep_ok; eauto. apply hash_inj_live.
    + eapply cstep_pfx; [split; apply Hk1| |exact H2]. auto.
    + apply (Hc (ops ++ [o]) []); [rewrite app_nil_r; reflexivity|].
      rewrite crun_app, H1. cbn [obind crun]. rewrite H2. reflexivity.
Qed.

Lemma nset_mem_In k l : nset_mem k l = true <-> In k l.
Proof.
  induction l as [|x l IH]; simpl; [split; [discriminate|contradiction]|].
  rewrite orb_true_iff, IH, N.eqb_eq. intuition congruence.
Qed.
Lemma core_ok_ibf n k : core_ok n k -> IbfOf n (map name_hash (live k)) (k_iblt k).
Proof.
  intros [S B R]. destruct R as [R1 R2 R3 (ops & R4 & R5 & R6)].
  apply IbfOf_of_net with (1 := R4).
  - unfold live. assert (NoDup (live_names (k_prefixes k))) as Hn by (apply live_names_NoDup; auto).
    assert (forall x, In x (live_names (k_prefixes k)) -> livep (k_prefixes k) x) as Hl
      by (intros x Hx; apply live_names_In; auto).
    induction Hn as [|x l Hx Hn IH]; simpl; constructor.
    + intros X. apply in_map_iff in X as (y & E & Hy). apply Hx.
      rewrite (R3 x y); auto; [apply Hl; left; auto|apply Hl; right; auto].
    + apply IH. intros y Hy. apply Hl. right. auto.
  - intros x. destruct (nset_mem x (map name_hash (live k))) eqn:E.
    + apply nset_mem_In in E. apply in_map_iff in E as (m & <- & Hm).
      apply live_names_In in Hm; auto.
      destruct (R6 (name_hash m)) as [(y & _ & _ & ->)|(A & _)]; auto. exfalso. apply (A m); auto.
    + destruct (R6 x) as [(y & A & B' & _)|(_ & ->)]; auto. exfalso.
      rewrite <- not_true_iff_false in E. apply E. apply nset_mem_In. subst x. apply in_map.
      apply live_names_In; auto.
Qed.

(** ** Sequence numbers *)
Lemma get_seq_step p k o k' :
  pfx_ok (k_prefixes k) -> cstep k o = Ok k' -> get_seq p k' = seq_step p (get_seq p k) o.
Proof.
  intros [Hs Hb] H. unfold get_seq.
  assert (U : forall q s k', core_update q s k = Ok k' ->
    nm_find p (k_prefixes k') =
      if name_eqb p q then option_map (N.max s) (nm_find p (k_prefixes k)) else nm_find p (k_prefixes k)).
  { intros q s k1 H1. rewrite (core_update_prefixes _ _ _ _ H1).
    destruct (name_eqb p q) eqn:E.
    - apply name_eqb_eq in E. subst q. destruct (nm_find p (k_prefixes k)) as [old|] eqn:F.
      + destruct (N.leb_spec s old); [rewrite F|rewrite nm_find_set_same]; cbn [option_map]; f_equal; lia.
      + rewrite F. reflexivity.
    - apply name_eqb_neq in E. destruct (nm_find q (k_prefixes k)) as [old|]; auto.
      destruct (s <=? old); auto. apply nm_find_set_other. exact E. }
  destruct o as [q|q|q s|q s]; cbn [cstep seq_step] in *.
  - injection H as <-. rewrite core_add_prefixes. unfold nm_emplace.
    destruct (nm_find q (k_prefixes k)) eqn:F.
    + destruct (name_eqb p q) eqn:E; auto. apply name_eqb_eq in E. subst. rewrite F. reflexivity.
    + rewrite nm_find_set. destruct (name_eqb p q) eqn:E; auto. apply name_eqb_eq in E. subst.
      rewrite F. reflexivity.
  - rewrite (core_remove_prefixes _ _ _ H). rewrite nm_find_erase by auto. reflexivity.
  - apply U. exact H.
  - rewrite core_publish_update in H. destruct (nm_find q (k_prefixes k)) as [cur|] eqn:F.
    + unfold omap in H. apply obind_ok in H as (r & H1 & H). apply obind_ok in H1 as (k1 & H1 & H2).
      injection H2 as <-. injection H as <-. cbn [fst]. rewrite (U _ _ _ H1).
      destruct s as [v|]; cbn [publish_seq]; auto.
      destruct (name_eqb p q) eqn:E; auto. apply name_eqb_eq in E. subst. rewrite F. reflexivity.
    + injection H as <-. destruct s; destruct (name_eqb p q) eqn:E; auto;
        apply name_eqb_eq in E; subst; rewrite F; reflexivity.
Qed.
Lemma get_seq_run p ops : forall k k',
  pfx_ok (k_prefixes k) -> Forall cop_wf ops -> crun k ops = Ok k' ->
  get_seq p k' = fold_left (seq_step p) ops (get_seq p k).
Proof.
  induction ops as [|o ops IH]; intros k k' Hk Hw H; simpl in H; [injection H as <-; auto|].
  inversion Hw; subst. apply obind_ok in H as (k1 & H1 & H). cbn [fold_left].
  rewrite <- (get_seq_step p k o k1) by auto. apply IH; auto. eapply cstep_pfx; eauto.
Qed.
