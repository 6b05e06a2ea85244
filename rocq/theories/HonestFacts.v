(** Soundness, termination and completeness of operator- on honest IBFs. *)
From Coq Require Import List NArith ZArith Bool Lia Arith Permutation Sorted.
From Verif Require Import Base BaseFacts Murmur MurmurFacts Iblt IbltFacts PeelFacts SpecIblt.
Import ListNotations.
Ltac Zify.zify_post_hook ::= Z.to_euclidean_division_equations.

Definition signs_ok (l : list skey) : Prop := Forall (fun x => fst x = 1%Z \/ fst x = (-1)%Z) l.

Lemma hit_cells m k j : hit m k j = true <-> In j (cells_of m k).
Proof.
  unfold hit, cells_of. rewrite !orb_true_iff, !Nat.eqb_eq. simpl. intuition.
Qed.

Lemma csum_hits m j l :
  Forall (fun x => hit m (snd x) j = true) l ->
  csum m l j = mkCell (sum_sign l) (xor_keys l) (xor_checks l).
Proof.
  induction 1 as [|[s k] l Hh _ IH]; [reflexivity|].
  simpl in *. rewrite IH. unfold kcell. rewrite Hh. reflexivity.
Qed.

Lemma csum_as_group m j l :
  csum m l j = mkCell (sum_sign (filter (fun x => hit m (snd x) j) l))
                      (xor_keys (filter (fun x => hit m (snd x) j) l))
                      (xor_checks (filter (fun x => hit m (snd x) j) l)).
Proof.
  rewrite csum_filter. apply csum_hits. apply Forall_forall. intros x Hx.
  apply filter_In in Hx. tauto.
Qed.

(** a sub-collection of the differing keys *)
Definition sub (r delta : list skey) : Prop := NoDup r /\ incl r delta.

Lemma sub_filter f r delta : sub r delta -> sub (filter f r) delta.
Proof.
  intros [N I]. split; [apply NoDup_filter; auto|].
  intros x Hx. apply filter_In in Hx. apply I. tauto.
Qed.

(** a pure cell belongs to a single remaining key *)
Lemma pure_single m j r delta :
  sub r delta -> signs_ok delta -> no_coincidence delta ->
  is_pure (csum m r j) = true ->
  exists s k, filter (fun x => hit m (snd x) j) r = [(s, k)] /\
    c_count (csum m r j) = s /\ c_sum (csum m r j) = k /\ In (s, k) r /\ hit m k j = true.
Proof.
  intros Hs Hsg Hnc Hp. apply is_pure_iff in Hp as (Hcnt & Hchk).
  rewrite csum_as_group in *. simpl in Hcnt, Hchk.
  destruct (sub_filter (fun x => hit m (snd x) j) r delta Hs) as [LN LI].
  remember (filter (fun x => hit m (snd x) j) r) as L eqn:HL.
  destruct L as [|[s k] [|y L']].
  - simpl in Hcnt. lia.
  - exists s, k. assert (In (s, k) [(s, k)]) as Hin by (left; auto).
    rewrite HL in Hin. apply filter_In in Hin as [Hin Hh]. simpl in *.
    rewrite N.lxor_0_r. repeat split; auto. lia.
  - exfalso. destruct (Hnc (((s, k) :: y :: L'))) as [A _]; [assumption|assumption|simpl; lia|].
    apply A. split; auto.
Qed.

Lemma empty_none m j r delta :
  sub r delta -> signs_ok delta -> no_coincidence delta ->
  csum m r j = cell0 -> filter (fun x => hit m (snd x) j) r = [].
Proof.
  intros Hs Hsg Hnc Hz. rewrite csum_as_group in Hz.
  destruct (sub_filter (fun x => hit m (snd x) j) r delta Hs) as [LN LI].
  remember (filter (fun x => hit m (snd x) j) r) as L eqn:HL.
  destruct L as [|[s k] [|y L']]; auto; exfalso.
  - simpl in Hz. injection Hz as Hz1 Hz2 Hz3.
    assert (In (s, k) delta) by (apply LI; left; auto).
    unfold signs_ok in Hsg. rewrite Forall_forall in Hsg. apply Hsg in H. simpl in H. lia.
  - destruct (Hnc (((s, k) :: y :: L'))) as [_ A]; [assumption|assumption|simpl; lia|].
    injection Hz as Hz1 Hz2 Hz3. apply A. auto.
Qed.

(** invariant of the peeling loop on honest differences *)
Fixpoint ordered (m : nat) (p r : list skey) : Prop :=
  match p with
  | [] => True
  | x :: p' => (exists j, hit m (snd x) j = true /\
                 forall y, In y (p' ++ r) -> hit m (snd y) j = false) /\ ordered m p' r
  end.

Definition hinv (m : nat) (delta : list skey) (st : peel) (r : list skey) : Prop :=
  exists p, Permutation delta (p ++ r) /\
    length (p_tab st) = m /\
    (forall j, cell_at (p_tab st) j = csum m r j) /\
    (forall k, In k (p_pos st) <-> In (1%Z, k) p) /\
    (forall k, In k (p_neg st) <-> In ((-1)%Z, k) p) /\
    ordered m p r.

Lemma NoDup_app_r {A} (a b : list A) : NoDup (a ++ b) -> NoDup b.
Proof. induction a as [|x a IH]; simpl; auto. intros H. inversion H; auto. Qed.

Lemma perm_sub delta p r : NoDup delta -> Permutation delta (p ++ r) -> sub r delta.
Proof.
  intros N P. split.
  - eapply NoDup_app_r. eapply Permutation_NoDup; eauto.
  - intros x Hx. eapply Permutation_in; [symmetry; exact P|]. apply in_or_app. auto.
Qed.

Lemma ordered_snoc m p r r' x j :
  ordered m p r -> Permutation r (x :: r') -> hit m (snd x) j = true ->
  (forall y, In y r' -> hit m (snd y) j = false) ->
  ordered m (p ++ [x]) r'.
Proof.
  intros Ho P Hx Hy. induction p as [|z p IH]; simpl in *.
  - split; auto. exists j. split; auto.
  - destruct Ho as [(i & Hi & Hn) Ho]. split; auto.
    exists i. split; auto. intros y Hin. apply Hn.
    rewrite <- app_assoc in Hin. simpl in Hin.
    apply in_app_or in Hin as [Hin|Hin]; apply in_or_app; auto.
    right. eapply Permutation_in; [symmetry; exact P|]. exact Hin.
Qed.

Lemma snd_functional (d : list skey) s s' k :
  NoDup (map snd d) -> In (s, k) d -> In (s', k) d -> s = s'.
Proof.
  induction d as [|[a b] d IH]; simpl; intros Nd H H'; [tauto|]. inversion Nd; subst.
  destruct H as [H|H], H' as [H'|H'].
  - congruence.
  - exfalso. apply H2. injection H as -> ->. apply in_map_iff. exists (s', k). auto.
  - exfalso. apply H2. injection H' as -> ->. apply in_map_iff. exists (s, k). auto.
  - auto.
Qed.

Section Honest.
Context (m : nat) (delta : list skey).
Context (Hnd : NoDup delta) (Hkeys : NoDup (map snd delta)) (Hsg : signs_ok delta)
  (Hnc : no_coincidence delta).
Context (Hm : delta <> [] -> Nat.div m 3 <> 0).
Context (Hrange : forall r j, sub r delta -> in_i32 (c_count (csum m r j)) = true).

Lemma hinv_step j st r :
  hinv m delta st r ->
  exists st' r', peel_entry j st = Ok st' /\ hinv m delta st' r' /\
    length r' + p_erased st' = length r + p_erased st.
Proof.
  intros (p & P & L & C & Ps & Ng & O).
  pose proof (perm_sub _ _ _ Hnd P) as Hsub.
  unfold peel_entry. destruct (nth_error (p_tab st) j) as [e|] eqn:En.
  2:{ exists st, r. split; auto. split; auto. exists p. repeat split; auto; try apply Ps; try apply Ng. }
  assert (j < length (p_tab st)) as Hj by (apply nth_error_Some; congruence).
  rewrite nth_error_cell_at in En by assumption. injection En as <-. rewrite C.
  destruct (is_pure (csum m r j)) eqn:Ep.
  2:{ exists st, r. split; auto. split; auto. exists p. repeat split; auto; try apply Ps; try apply Ng. }
  destruct (pure_single m j r delta Hsub Hsg Hnc Ep) as (s & k & Hf & Hc & Hsm & Hin & Hh).
  assert (s = 1 \/ s = -1)%Z as Hs1.
  { unfold signs_ok in Hsg. rewrite Forall_forall in Hsg. apply (Hsg (s, k)). apply Hsub. auto. }
  destruct (in_split _ _ Hin) as (r1 & r2 & Er).
  assert (Permutation r ((s, k) :: r1 ++ r2)) as Pr.
  { rewrite Er. symmetry. apply Permutation_middle. }
  set (r' := r1 ++ r2) in *.
  assert (sub r' delta) as Hsub'.
  { split.
    - eapply (NoDup_cons_iff (s, k) r'). eapply Permutation_NoDup; [exact Pr|]. apply Hsub.
    - intros x Hx. apply Hsub. eapply Permutation_in; [symmetry; exact Pr|]. right; auto. }
  assert (Nat.div m 3 <> 0) as Hm3.
  { apply Hm. intros E. destruct Hsub as [_ I]. specialize (I _ Hin). rewrite E in I. destruct I. }
  assert (forall i, cadd (csum m r i) (kcell m (- s) k i) = csum m r' i) as Cr.
  { intros i. rewrite (csum_perm m r ((s, k) :: r') i Pr). simpl.
    rewrite kcell_neg, (cadd_comm (kcell m s k i)), <- cadd_assoc, cadd_neg_r, cadd_0_r. reflexivity. }
  rewrite Hc, Hsm.
  destruct (iblt_update_total (p_tab st) (- s) k) as [t Hu].
  { rewrite L; auto. }
  { intros i Hi. rewrite L in Hi. rewrite C.
    pose proof (Cr i) as Ci. unfold kcell in Ci. rewrite Hi in Ci.
    apply (f_equal c_count) in Ci. simpl in Ci. rewrite Ci. apply Hrange; auto. }
  rewrite Hu. simpl.
  pose proof (iblt_update_ok _ _ _ _ Hu) as (_ & Lt & Ct).
  assert (forall i, cell_at t i = csum m r' i) as Ct'.
  { intros i. rewrite Ct, C, L. apply Cr. }
  assert (Permutation delta ((p ++ [(s, k)]) ++ r')) as P'.
  { rewrite <- app_assoc. simpl. rewrite P. apply Permutation_app_head. exact Pr. }
  assert (length r = S (length r')) as Lr.
  { apply Permutation_length in Pr. exact Pr. }
  assert (ordered m (p ++ [(s, k)]) r') as O'.
  { eapply ordered_snoc; eauto. intros y Hy.
    destruct (hit m (snd y) j) eqn:E; auto. exfalso.
    assert (In y (filter (fun x => hit m (snd x) j) r)) as Hyf.
    { apply filter_In. split; auto. eapply Permutation_in; [symmetry; exact Pr|]. right; auto. }
    rewrite Hf in Hyf. destruct Hyf as [<-|[]].
    assert (NoDup ((s, k) :: r')) as Nn by (eapply Permutation_NoDup; [exact Pr|apply Hsub]).
    inversion Nn; contradiction. }
  assert (forall sg x, In (sg, x) (p ++ [(s, k)]) <-> (sg = s /\ x = k) \/ In (sg, x) p) as Inp.
  { intros sg x. rewrite in_app_iff. simpl. split.
    - intros [|[[= -> ->]|[]]]; auto.
    - intros [[-> ->]|]; auto. }
  eexists _, r'. split; [reflexivity|].
  destruct Hs1 as [-> | ->]; simpl.
  - split; [|lia]. exists (p ++ [(1%Z, k)]). simpl. repeat split; auto; try congruence.
    + intros. apply Inp. apply nset_insert_In in H as [->|H]; auto. right. apply Ps; auto.
    + intros. apply nset_insert_In. apply Inp in H as [[_ ->]|H]; auto. right. apply Ps; auto.
    + intros. apply Inp. right. apply Ng; auto.
    + intros H. apply Inp in H as [[[=] _]|H]. apply Ng; auto.
  - split; [|lia]. exists (p ++ [((-1)%Z, k)]). simpl. repeat split; auto; try congruence.
    + intros. apply Inp. right. apply Ps; auto.
    + intros H. apply Inp in H as [[[=] _]|H]. apply Ps; auto.
    + intros. apply Inp. apply nset_insert_In in H as [->|H]; auto. right. apply Ng; auto.
    + intros. apply nset_insert_In. apply Inp in H as [[_ ->]|H]; auto. right. apply Ng; auto.
Qed.

Lemma hinv_pass n j st r :
  hinv m delta st r ->
  exists st' r', peel_pass n j st = Ok st' /\ hinv m delta st' r' /\
    length r' + p_erased st' = length r + p_erased st.
Proof.
  revert j st r; induction n as [|n IH]; intros j st r H; simpl.
  - exists st, r. auto.
  - destruct (hinv_step j st r H) as (st1 & r1 & E1 & H1 & M1). rewrite E1. simpl.
    destruct (IH (S j) st1 r1 H1) as (st2 & r2 & E2 & H2 & M2).
    exists st2, r2. repeat split; auto. lia.
Qed.

Lemma hinv_loop fuel st r :
  hinv m delta st r -> length r < fuel ->
  exists st' r', peel_loop fuel st = Ok st' /\ hinv m delta st' r' /\
    forall i, is_pure (csum m r' i) = false.
Proof.
  revert st r; induction fuel as [|f IH]; intros st r H Hf; [lia|]. simpl.
  assert (hinv m delta (mkPeel (p_tab st) (p_pos st) (p_neg st) 0) r) as H0 by exact H.
  destruct (hinv_pass (length (p_tab st)) 0 _ r H0) as (st1 & r1 & E1 & H1 & M1).
  rewrite E1. simpl in *.
  destruct (Nat.eqb_spec (p_erased st1) 0) as [E|E].
  - exists st1, r1. split; auto. split; auto. intros i.
    destruct (peel_pass_erased _ _ _ _ E1) as (_ & Z1). simpl in Z1.
    destruct (Z1 E) as (-> & Pz). destruct H1 as (p & P & L & C & _). simpl in *.
    rewrite <- C. destruct (Nat.lt_ge_cases i (length (p_tab st))); [apply Pz; lia|].
    rewrite cell_at_out by assumption. reflexivity.
  - apply (IH st1 r1); auto. lia.
Qed.

Lemma ordered_keys p : ordered m p [] -> peel_order m (map snd p).
Proof.
  induction p as [|x p IH]; simpl; auto. intros [(j & Hj & Hn) O]. split; auto.
  exists j. split; [apply hit_cells; auto|].
  intros k' Hk Hin. apply in_map_iff in Hk as (y & <- & Hy). apply hit_cells in Hin.
  rewrite (Hn y) in Hin; [discriminate|]. rewrite app_nil_r. auto.
Qed.

(** a nonempty remainder of a peelable collection always has a pure cell *)
Lemma peelable_pure r :
  peelable m (map snd delta) -> sub r delta -> r <> [] ->
  exists j, is_pure (csum m r j) = true.
Proof.
  intros (l & Pl & Ol) [Nr Ir] Hne.
  assert (forall l, peel_order m l -> NoDup l ->
    (exists x, In x r /\ In (snd x) l) ->
    exists x j, In x r /\ hit m (snd x) j = true /\
      forall y, In y r -> In (snd y) l -> snd y <> snd x -> hit m (snd y) j = false) as Key.
  { clear l Pl Ol. induction l as [|k l IH]; intros Ol Nl (x & Hx & Hk); [destruct Hk|].
    simpl in Ol. destruct Ol as [(j & Hj & Hn) Ol]. inversion Nl; subst.
    destruct (in_dec N.eq_dec k (map snd r)) as [Hkr|Hkr].
    - apply in_map_iff in Hkr as (z & <- & Hz). exists z, j. split; auto. split; [apply hit_cells; auto|].
      intros y Hy [Hl|Hl] Hd; [congruence|].
      destruct (hit m (snd y) j) eqn:E; auto. exfalso. apply hit_cells in E. eapply Hn; eauto.
    - destruct IH as (z & j' & Hz & Hh & Hy); auto.
      { exists x. split; auto. destruct Hk as [Hk|]; auto. exfalso. apply Hkr. rewrite Hk. apply in_map. auto. }
      exists z, j'. split; auto. split; auto. intros y Hyr [Hl|Hl] Hd; auto.
      exfalso. apply Hkr. rewrite Hl. apply in_map. auto. }
  assert (forall y, In y r -> In (snd y) l) as Hall.
  { intros y Hy. eapply Permutation_in; [exact Pl|]. apply in_map. apply Ir. auto. }
  destruct (Key l) as ([s k] & j & Hx & Hh & Hy); auto.
  { eapply Permutation_NoDup; eauto. }
  { destruct r as [|x r]; [congruence|]. exists x. split; [left; auto|]. apply Hall. left; auto. }
  exists j. simpl in *.
  assert (filter (fun x => hit m (snd x) j) r = [(s, k)]) as Hf.
  { assert (forall y, In y (filter (fun x => hit m (snd x) j) r) -> y = (s, k)) as Only.
    { intros [s' k'] Hin. apply filter_In in Hin as [Hin Hh']. simpl in Hh'.
      destruct (N.eq_dec k' k) as [->|Hd].
      - f_equal. assert (In (s', k) delta) by auto. assert (In (s, k) delta) by auto.
        eapply snd_functional; eauto.
      - pose proof (Hy (s', k') Hin (Hall _ Hin) Hd) as Hf. simpl in Hf. congruence. }
    assert (NoDup (filter (fun x => hit m (snd x) j) r)) as Nf by (apply NoDup_filter; auto).
    assert (In (s, k) (filter (fun x => hit m (snd x) j) r)) as Hin by (apply filter_In; auto).
    destruct (filter (fun x => hit m (snd x) j) r) as [|a [|b q]]; [destruct Hin| |].
    - f_equal. apply Only. left; auto.
    - exfalso. inversion Nf; subst. apply H1.
      rewrite (Only a), <- (Only b); [left; auto|right; left; auto|left; auto]. }
  rewrite csum_as_group, Hf. apply is_pure_iff. simpl.
  rewrite !N.lxor_0_r. split; auto.
  assert (In (s, k) delta) by auto. unfold signs_ok in Hsg. rewrite Forall_forall in Hsg.
  apply Hsg in H. simpl in H. lia.
Qed.

Theorem peel_honest fuel t :
  length t = m -> (forall j, cell_at t j = csum m delta j) -> length delta < fuel ->
  exists st', peel_loop fuel (mkPeel t [] [] 0) = Ok st' /\
    (forall k, In k (p_pos st') -> In (1%Z, k) delta) /\
    (forall k, In k (p_neg st') -> In ((-1)%Z, k) delta) /\
    (forallb is_empty (p_tab st') = true <-> peelable m (map snd delta)) /\
    (forallb is_empty (p_tab st') = true ->
       (forall k, In k (p_pos st') <-> In (1%Z, k) delta) /\
       (forall k, In k (p_neg st') <-> In ((-1)%Z, k) delta)).
Proof.
  intros L C Hf.
  assert (hinv m delta (mkPeel t [] [] 0) delta) as H0.
  { exists []. simpl. repeat split; auto; tauto. }
  destruct (hinv_loop fuel _ _ H0 Hf) as (st' & r & E & H & Np).
  exists st'. split; auto. destruct H as (p & P & L' & C' & Ps & Ng & O).
  assert (forall x, In x p -> In x delta) as Hpd.
  { intros x Hx. eapply Permutation_in; [symmetry; exact P|]. apply in_or_app; auto. }
  pose proof (perm_sub _ _ _ Hnd P) as Hsub.
  assert (forallb is_empty (p_tab st') = true -> r = []) as Hr.
  { intros He. rewrite forallb_empty in He.
    destruct r as [|[s k] r]; auto. exfalso.
    assert (filter (fun x => hit m (snd x) (bucket m 0 k)) ((s, k) :: r) = []) as F.
    { eapply empty_none; eauto. rewrite <- C'. apply He. }
    simpl in F. rewrite hit_bucket in F by lia. discriminate. }
  split; [intros; apply Hpd, Ps; auto|]. split; [intros; apply Hpd, Ng; auto|]. split; [split|].
  - intros He. specialize (Hr He). subst r. rewrite app_nil_r in P.
    exists (map snd p). split; [apply Permutation_map; auto|]. apply ordered_keys. exact O.
  - intros Hp. apply forallb_empty. intros j. rewrite C'.
    assert (r = []) as ->; [|reflexivity].
    destruct r as [|x r]; auto. exfalso.
    destruct (peelable_pure (x :: r) Hp Hsub) as [i Hi]; [discriminate|].
    rewrite Np in Hi. discriminate.
  - intros He. specialize (Hr He). subst r. rewrite app_nil_r in P.
    split; intros k; rewrite ?Ps, ?Ng; split; auto;
      intros; eapply Permutation_in; eauto.
Qed.
End Honest.

(** ** From key sets to signed differences *)
Lemma insert_all_run t ks : insert_all t ks = iblt_run t (map (fun k => (1%Z, k)) ks).
Proof.
  revert t; induction ks as [|k ks IH]; intros t; simpl; auto.
  unfold iblt_insert. destruct (iblt_update t 1 k); simpl; auto.
Qed.

Lemma only_in_In a b k : In k (only_in a b) <-> In k a /\ ~ In k b.
Proof.
  unfold only_in. rewrite filter_In, negb_true_iff, <- not_true_iff_false, nset_mem_In. reflexivity.
Qed.

Lemma filter_split_perm {A} (f : A -> bool) l :
  Permutation l (filter f l ++ filter (fun x => negb (f x)) l).
Proof.
  induction l as [|x l IH]; simpl; auto. destruct (f x); simpl.
  - apply perm_skip. exact IH.
  - rewrite IH at 1. apply Permutation_middle.
Qed.

Definition pos1 (l : list N) : list skey := map (fun k => (1%Z, k)) l.

Lemma common_perm a b :
  NoDup a -> NoDup b ->
  Permutation (filter (fun k => nset_mem k b) a) (filter (fun k => nset_mem k a) b).
Proof.
  intros. apply NoDup_Permutation; try (apply NoDup_filter; auto).
  intros x. rewrite !filter_In, !nset_mem_In. tauto.
Qed.

Lemma csum_signed_diff m a b j :
  NoDup a -> NoDup b ->
  cadd (csum m (pos1 a) j) (cneg (csum m (pos1 b) j)) = csum m (signed_diff a b) j.
Proof.
  intros Na Nb.
  assert (forall x y, csum m (pos1 x) j =
    cadd (csum m (pos1 (filter (fun k => nset_mem k y) x)) j)
         (csum m (pos1 (only_in x y)) j)) as Split.
  { intros x y. rewrite <- csum_app. apply csum_perm. unfold pos1, only_in. rewrite <- map_app.
    apply Permutation_map. apply filter_split_perm. }
  rewrite (Split a b), (Split b a).
  rewrite (csum_perm m (pos1 (filter (fun k => nset_mem k b) a)) (pos1 (filter (fun k => nset_mem k a) b))).
  2:{ apply Permutation_map, common_perm; auto. }
  unfold signed_diff. fold (pos1 (only_in a b)). rewrite csum_app.
  replace (map (fun k => ((-1)%Z, k)) (only_in b a)) with (sneg (pos1 (only_in b a))).
  2:{ unfold sneg, pos1. rewrite map_map. reflexivity. }
  rewrite csum_neg, cneg_add.
  set (c := csum m (pos1 (filter _ b)) j). set (x := csum m (pos1 (only_in a b)) j).
  set (y := csum m (pos1 (only_in b a)) j).
  rewrite (cadd_comm c x), <- cadd_assoc, (cadd_assoc c), cadd_neg_r, cadd_0_l. reflexivity.
Qed.

Lemma signed_diff_In a b s k :
  In (s, k) (signed_diff a b) <->
  (s = 1%Z /\ In k a /\ ~ In k b) \/ (s = (-1)%Z /\ In k b /\ ~ In k a).
Proof.
  unfold signed_diff. rewrite in_app_iff, !in_map_iff. split.
  - intros [(x & [= <- <-] & Hx)|(x & [= <- <-] & Hx)]; apply only_in_In in Hx; auto.
  - intros [(-> & Hx)|(-> & Hx)]; [left|right]; exists k; split; auto; apply only_in_In; auto.
Qed.

Lemma signed_diff_signs a b : signs_ok (signed_diff a b).
Proof.
  apply Forall_forall. intros [s k] H. apply signed_diff_In in H. simpl. intuition.
Qed.

Lemma signed_diff_keys a b : NoDup a -> NoDup b -> NoDup (map snd (signed_diff a b)).
Proof.
  intros Na Nb. unfold signed_diff. rewrite map_app, !map_map. simpl. rewrite !map_id.
  assert (forall (x y : list N), NoDup x -> NoDup y -> (forall k, In k x -> ~ In k y) -> NoDup (x ++ y)) as App.
  { induction x as [|k x IH]; intros y Nx Ny Hd; simpl; auto. inversion Nx; subst.
    constructor; [|apply IH; auto; intros; apply Hd; right; auto].
    rewrite in_app_iff. intros [|]; [contradiction|]. eapply Hd; eauto. left; auto. }
  apply App; try (apply NoDup_filter; auto).
  intros k Hk Hk'. apply only_in_In in Hk, Hk'. tauto.
Qed.

Lemma NoDup_map_NoDup {A B} (f : A -> B) l : NoDup (map f l) -> NoDup l.
Proof.
  induction l as [|x l IH]; simpl; intros H; constructor; inversion H; subst; auto.
  intros Hin. apply H2. apply in_map. auto.
Qed.

(** counts of sub-collections are bounded by the counts of the two IBFs *)
Lemma csum_count m l j :
  c_count (csum m l j) = sum_sign (filter (fun x => hit m (snd x) j) l).
Proof. rewrite csum_as_group. reflexivity. Qed.

Lemma sum_sign_perm a b : Permutation a b -> sum_sign a = sum_sign b.
Proof. induction 1; simpl; lia. Qed.
Lemma sum_sign_app a b : sum_sign (a ++ b) = (sum_sign a + sum_sign b)%Z.
Proof. induction a; simpl; lia. Qed.
Lemma sum_sign_pos l : sum_sign (pos1 l) = Z.of_nat (length l).
Proof.
  induction l as [|x l IH]; [reflexivity|].
  change (sum_sign (pos1 (x :: l))) with (1 + sum_sign (pos1 l))%Z. rewrite IH. cbn [length]. lia.
Qed.
Lemma filter_pos1 m j l :
  filter (fun x => hit m (snd x) j) (pos1 l) = pos1 (filter (fun k => hit m k j) l).
Proof.
  unfold pos1. induction l as [|k l IH]; simpl; auto. destruct (hit m k j); simpl; congruence.
Qed.

Lemma sub_count_bounds m a b r j :
  NoDup a -> NoDup b -> sub r (signed_diff a b) ->
  (- c_count (csum m (pos1 b) j) <= c_count (csum m r j) <= c_count (csum m (pos1 a) j))%Z.
Proof.
  intros Na Nb [Nr Ir].
  rewrite !csum_count, !filter_pos1, !sum_sign_pos.
  set (f := fun x : skey => hit m (snd x) j).
  set (rf := filter f r).
  assert (Permutation rf (filter (fun x => Z.eqb (fst x) 1) rf ++
                          filter (fun x => negb (Z.eqb (fst x) 1)) rf)) as P
    by apply filter_split_perm.
  rewrite (sum_sign_perm _ _ P), sum_sign_app.
  assert (NoDup rf) as Nf by (apply NoDup_filter; auto).
  assert (Hin : forall s k, In (s, k) rf -> In (s, k) (signed_diff a b) /\ hit m k j = true).
  { intros s k Hx. apply filter_In in Hx as [H1 H2]. split; auto. }
  assert (forall l, Forall (fun x : skey => fst x = 1%Z) l -> sum_sign l = Z.of_nat (length l)) as S1.
  { induction 1 as [|x l Hx _ IH]; [reflexivity|].
    change (sum_sign (x :: l)) with (fst x + sum_sign l)%Z. rewrite IH, Hx. cbn [length]. lia. }
  assert (forall l, Forall (fun x : skey => fst x = (-1)%Z) l -> sum_sign l = (- Z.of_nat (length l))%Z) as S2.
  { induction 1 as [|x l Hx _ IH]; [reflexivity|].
    change (sum_sign (x :: l)) with (fst x + sum_sign l)%Z. rewrite IH, Hx. cbn [length]. lia. }
  rewrite S1, S2.
  - assert (length (filter (fun x => Z.eqb (fst x) 1) rf) <= length (filter (fun k => hit m k j) a)).
    { rewrite <- (map_length snd (filter _ rf)). apply NoDup_incl_length.
      - apply NoDup_map_NoDup with (f := fun k : N => (1%Z, k)). rewrite map_map.
        rewrite map_ext_in with (g := fun x => x).
        + rewrite map_id. apply NoDup_filter; auto.
        + intros [s k] Hx. apply filter_In in Hx as [_ Hx]. simpl in *. apply Z.eqb_eq in Hx. subst; auto.
      - intros k Hx. apply in_map_iff in Hx as ([s k'] & <- & Hx). apply filter_In in Hx as [Hx E].
        simpl in *. apply Z.eqb_eq in E. subst s. apply Hin in Hx as [Hx Hh].
        apply signed_diff_In in Hx. apply filter_In. split; auto. intuition discriminate. }
    assert (length (filter (fun x => negb (Z.eqb (fst x) 1)) rf) <= length (filter (fun k => hit m k j) b)).
    { rewrite <- (map_length snd (filter _ rf)). apply NoDup_incl_length.
      - apply NoDup_map_NoDup with (f := fun k : N => ((-1)%Z, k)). rewrite map_map.
        rewrite map_ext_in with (g := fun x => x).
        + rewrite map_id. apply NoDup_filter; auto.
        + intros [s k] Hx. apply filter_In in Hx as [Hx E]. simpl in *. apply Hin in Hx as [Hx _].
          apply signed_diff_In in Hx as [(-> & _)|(-> & _)]; auto. discriminate.
      - intros k Hx. apply in_map_iff in Hx as ([s k'] & <- & Hx). apply filter_In in Hx as [Hx E].
        simpl in *. apply Hin in Hx as [Hx Hh].
        apply signed_diff_In in Hx. apply filter_In. split; auto.
        destruct Hx as [(-> & _)|(_ & Hx & _)]; auto. discriminate. }
    lia.
  - apply Forall_forall. intros [s k] Hx. apply filter_In in Hx as [Hx E]. simpl in *.
    apply Hin in Hx as [Hx _]. apply signed_diff_In in Hx as [(-> & _)|(-> & _)]; auto. discriminate.
  - apply Forall_forall. intros [s k] Hx. apply filter_In in Hx as [Hx E]. simpl in *.
    apply Z.eqb_eq in E. auto.
Qed.

Lemma IbfOf_cells n ks t :
  IbfOf n ks t ->
  length t = n_entries n /\ (ks <> [] -> Nat.div (n_entries n) 3 <> 0) /\ wf_table t /\
  forall j, cell_at t j = csum (n_entries n) (pos1 ks) j.
Proof.
  unfold IbfOf. rewrite insert_all_run. intros H.
  pose proof (iblt_run_wf _ _ _ (iblt_new_wf n) H) as W.
  apply iblt_run_ok in H as (L & Hm & C). rewrite iblt_new_length in *.
  repeat split; auto.
  - intros Hk. apply Hm. destruct ks; simpl; congruence.
  - intros j. rewrite C, iblt_new_cell, cadd_0_l. reflexivity.
Qed.

Lemma signed_diff_nil a b : signed_diff a b <> [] -> a <> [] \/ b <> [].
Proof. intros H. destruct a; [|left; discriminate]. destruct b; [exfalso; auto|right; discriminate]. Qed.

(** C08 and C09 in one statement *)
Theorem iblt_sub_honest n a b ta tb fuel :
  NoDup a -> NoDup b -> IbfOf n a ta -> IbfOf n b tb ->
  no_coincidence (signed_diff a b) -> length (signed_diff a b) < fuel ->
  exists d, iblt_sub fuel ta tb = Ok d /\
    (forall k, In k (positive d) -> In k a /\ ~ In k b) /\
    (forall k, In k (negative d) -> In k b /\ ~ In k a) /\
    (can_decode d = true <-> peelable (n_entries n) (only_in a b ++ only_in b a)) /\
    (can_decode d = true ->
       (forall k, In k (positive d) <-> In k a /\ ~ In k b) /\
       (forall k, In k (negative d) <-> In k b /\ ~ In k a)).
Proof.
  intros Na Nb Ha Hb Hnc Hf.
  apply IbfOf_cells in Ha as (La & Ma & Wa & Ca). apply IbfOf_cells in Hb as (Lb & Mb & Wb & Cb).
  set (m := n_entries n) in *. set (delta := signed_diff a b) in *.
  assert (Hkeys : NoDup (map snd delta)) by (apply signed_diff_keys; auto).
  assert (Hnd : NoDup delta) by (eapply NoDup_map_NoDup; eauto).
  assert (Hcount0 : forall l j, (0 <= c_count (csum m (pos1 l) j))%Z).
  { intros. rewrite csum_count, filter_pos1, sum_sign_pos. lia. }
  assert (Hrange : forall r j, sub r delta -> in_i32 (c_count (csum m r j)) = true).
  { intros r j Hs. pose proof (sub_count_bounds m a b r j Na Nb Hs) as B.
    pose proof (Wa j) as A1. pose proof (Wb j) as B1. rewrite Ca in A1. rewrite Cb in B1.
    apply in_i32_iff in A1, B1. apply in_i32_iff. unfold i32_min, i32_max in *. lia. }
  unfold iblt_sub.
  assert (exists t, table_sub ta tb = Ok t) as [t Ht].
  { apply table_sub_total; [congruence|]. intros j.
    replace (c_count (cell_at ta j) - c_count (cell_at tb j))%Z with (c_count (csum m delta j)).
    - apply Hrange. split; auto. apply incl_refl.
    - unfold delta. rewrite <- csum_signed_diff by assumption. rewrite Ca, Cb. simpl. lia. }
  rewrite Ht. simpl. apply table_sub_ok in Ht as (_ & Lt & Wt & Ct).
  destruct (peel_honest m delta Hnd Hkeys (signed_diff_signs a b) Hnc) with (fuel := fuel) (t := t)
    as (st & E & Sp & Sn & De & Ex); auto.
  - intros Hd. destruct (signed_diff_nil a b Hd); auto.
  - congruence.
  - intros j. rewrite Ct, Ca, Cb. apply csum_signed_diff; auto.
  - rewrite E. simpl. eexists. split; [reflexivity|]. simpl.
    assert (map snd delta = only_in a b ++ only_in b a) as Ek.
    { unfold delta, signed_diff. rewrite map_app, !map_map. simpl. rewrite !map_id. reflexivity. }
    split; [|split; [|split]].
    + intros k Hk. apply Sp in Hk. apply signed_diff_In in Hk. intuition discriminate.
    + intros k Hk. apply Sn in Hk. apply signed_diff_In in Hk. intuition discriminate.
    + rewrite De, Ek. reflexivity.
    + intros He. destruct (Ex He) as [Xp Xn].
      split; intros k; [rewrite Xp|rewrite Xn]; unfold delta; rewrite signed_diff_In; intuition discriminate.
Qed.

(** ** Small differences are free of coincidences *)
Lemma no_coincidence_small delta :
  NoDup (map snd delta) -> signs_ok delta -> length delta <= 2 -> no_coincidence delta.
Proof.
  intros Hk Hs Hl l Nl Il H2.
  assert (length l <= 2) by (eapply Nat.le_trans; [apply NoDup_incl_length; eauto|auto]).
  destruct l as [|[s1 k1] [|[s2 k2] [|? ?]]]; simpl in *; try lia.
  assert (In (s1, k1) delta) as I1 by (apply Il; left; auto).
  assert (In (s2, k2) delta) as I2 by (apply Il; right; left; auto).
  unfold signs_ok in Hs. rewrite Forall_forall in Hs.
  pose proof (Hs _ I1) as S1. pose proof (Hs _ I2) as S2. simpl in *.
  split; [intros [? _]; lia|].
  intros (Hz & Hx & _). rewrite N.lxor_0_r in Hx. apply N.lxor_eq in Hx. subst k2.
  assert (s1 = s2); [|lia].
  eapply snd_functional; eauto.
Qed.
