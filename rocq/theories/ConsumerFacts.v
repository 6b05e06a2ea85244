(** Facts about consumers. *)
From Coq Require Import List NArith ZArith Bool Arith Lia Sorted.
From Verif Require Import Base BaseFacts Mon MonFacts Iblt Tlv TlvFacts State StateFacts NMap NMapFacts Codec
  Bloom SpecBloom BloomFacts Properties_Bloom Store Producer SpecProducer Partial PartialFacts PartialSteps Full
  SpecFull FullData FullRuns Consumer SpecConsumer.
Import ListNotations.
Local Open Scope N_scope.

(** ** Handlers that keep an invariant, unless they end in undefined behaviour *)
Definition fine {A} (r : outcome A) : Prop := match r with Ok _ | Throw _ => True | _ => False end.
Section Pres.
Variable P : cs -> Prop.
Definition pres {A} (m : CM A) : Prop := forall s, P s -> fine (res (m s)) -> P (st (m s)).
Lemma pres_ret {A} (a : A) : pres (mret a).
Proof. intros s H _. exact H. Qed.
Lemma pres_emit o : pres (memit o).
Proof. intros s H _. exact H. Qed.
Lemma pres_lift {A} (r : outcome A) : pres (mlift r).
Proof. intros s H _. exact H. Qed.
Lemma pres_mod f : (forall s, P s -> P (f s)) -> pres (mmod f).
Proof. intros F s H _. apply F. exact H. Qed.
Lemma pres_bind {A B} (m : CM A) (f : A -> CM B) : pres m -> (forall a, pres (f a)) -> pres (mbind m f).
Proof.
  intros Hm Hf s Hs. specialize (Hm s Hs). unfold mbind. destruct (m s) as [[s1 o1] [a|e|u|]]; cbn [res st fst snd] in *; auto.
  specialize (Hf a s1). destruct (f a s1) as [[s2 o2] r2]. cbn [res st fst snd] in *. intros F. apply Hf; auto. apply Hm. exact I.
Qed.
Lemma pres_get {B} (f : cs -> CM B) : (forall s, P s -> fine (res (f s s)) -> P (st (f s s))) -> pres (mbind mget f).
Proof. intros H s Hs. rewrite mbind_get. apply H. exact Hs. Qed.
End Pres.

(** ** Fetchers *)
Record linv (s : cs) : Prop := mkLinv {
  li_hello : forall i n, In (i, (KHello, n)) (c_live s) -> c_hello s = Some i;
  li_sync : forall i n, In (i, (KSync, n)) (c_live s) -> c_sync s = Some i;
  li_once : NoDup (map fst (c_live s));
  li_hlt : forall i, c_hello s = Some i -> (i < c_started s)%nat;
  li_slt : forall i, c_sync s = Some i -> (i < c_started s)%nat;
  li_ne : forall i, c_hello s = Some i -> c_sync s <> Some i }.
Lemma without_In i l x : In x (cwithout i l) <-> In x l /\ fst x <> i.
Proof.
  unfold cwithout. rewrite filter_In. destruct (Nat.eqb_spec i (fst x)) as [E|E]; simpl; split; intros [A B]; split; auto;
    try discriminate; congruence.
Qed.
Lemma without_NoDup i l : NoDup (map fst l) -> NoDup (map fst (cwithout i l)).
Proof.
  induction l as [|x l IH]; simpl; auto. inversion 1 as [|y z H1 H2]; subst.
  destruct (negb (Nat.eqb i (fst x))); auto. simpl. constructor; auto.
  intros X. apply H1. apply in_map_iff in X as (y & E & X). apply filter_In in X as [X _]. apply in_map_iff. eauto.
Qed.
Lemma live_lt s i k n : linv s -> In (i, (k, n)) (c_live s) -> (i < c_started s)%nat.
Proof. intros L H. destruct k; [apply (li_hlt _ L), (li_hello _ L _ _ H)|apply (li_slt _ L), (li_sync _ L _ _ H)]. Qed.
Lemma linv_finish i s : linv s -> linv (cset_live (cwithout i (c_live s)) s).
Proof.
  intros L. constructor; simpl; try apply L.
  - intros j n H. apply without_In in H as [H _]. apply (li_hello _ L _ _ H).
  - intros j n H. apply without_In in H as [H _]. apply (li_sync _ L _ _ H).
  - apply without_NoDup, L.
Qed.
Lemma linv_stop p s : linv s -> linv (cstop p s).
Proof. destruct p; [apply linv_finish|auto]. Qed.
Lemma linv_start_hello n s : linv s -> linv (cstart KHello n (cstop (c_hello s) s)).
Proof.
  intros L. pose proof (linv_stop (c_hello s) s L) as L'.
  assert (forall i n, ~ In (i, (KHello, n)) (c_live (cstop (c_hello s) s))) as No.
  { intros i m H. pose proof (li_hello _ L' _ _ H) as E. unfold cstop in H, E. destruct (c_hello s) as [j|] eqn:Hh.
    - simpl in *. apply without_In in H as [_ H]. simpl in H. congruence.
    - congruence. }
  assert (c_started (cstop (c_hello s) s) = c_started s) as Es by (destruct (c_hello s); reflexivity).
  assert (c_sync (cstop (c_hello s) s) = c_sync s) as Ec by (destruct (c_hello s); reflexivity).
  set (s1 := cstop (c_hello s) s) in *. clearbody s1. constructor; cbn [cstart c_live c_hello c_sync c_started cset_started cset_live cset_hello].
  - intros i m [H|H]; [congruence|]. destruct (No _ _ H).
  - intros i m [H|H]; [discriminate|]. apply (li_sync _ L' _ _ H).
  - simpl. constructor; [|apply L']. intros H. apply in_map_iff in H as ([i [k m]] & E & H). simpl in E.
    pose proof (live_lt _ _ _ _ L' H). lia.
  - intros i [= <-]. lia.
  - intros i H. pose proof (li_slt _ L' _ H). lia.
  - intros i [= <-] H. pose proof (li_slt _ L' _ H). lia.
Qed.
Lemma linv_start_sync n s : linv s -> linv (cstart KSync n (cstop (c_sync s) s)).
Proof.
  intros L. pose proof (linv_stop (c_sync s) s L) as L'.
  assert (forall i n, ~ In (i, (KSync, n)) (c_live (cstop (c_sync s) s))) as No.
  { intros i m H. pose proof (li_sync _ L' _ _ H) as E. unfold cstop in H, E. destruct (c_sync s) as [j|] eqn:Hh.
    - simpl in *. apply without_In in H as [_ H]. simpl in H. congruence.
    - congruence. }
  set (s1 := cstop (c_sync s) s) in *. clearbody s1. constructor; cbn [cstart c_live c_hello c_sync c_started cset_started cset_live cset_sync].
  - intros i m [H|H]; [discriminate|]. apply (li_hello _ L' _ _ H).
  - intros i m [H|H]; [congruence|]. destruct (No _ _ H).
  - simpl. constructor; [|apply L']. intros H. apply in_map_iff in H as ([i [k m]] & E & H). simpl in E.
    pose proof (live_lt _ _ _ _ L' H). lia.
  - intros i H. pose proof (li_hlt _ L' _ H). lia.
  - intros i [= <-]. lia.
  - intros i H E. injection E as <-. pose proof (li_hlt _ L' _ H). lia.
Qed.

(** ** Data structures *)
Lemma linv_same s s' : c_live s' = c_live s -> c_hello s' = c_hello s -> c_sync s' = c_sync s ->
  c_started s' = c_started s -> linv s -> linv s'.
Proof. intros A B C D [H1 H2 H3 H4 H5 H6]. constructor; rewrite ?A, ?B, ?C, ?D; auto. Qed.
Lemma nm_mem_set {V} k v (m : nmap V) k' : nm_mem k' (nm_set k v m) = name_eqb k' k || nm_mem k' m.
Proof. unfold nm_mem. rewrite nm_find_set. destruct (name_eqb k' k); reflexivity. Qed.
Lemma nm_mem_emplace {V} k v (m : nmap V) k' : nm_mem k' (nm_emplace k v m) = name_eqb k' k || nm_mem k' m.
Proof.
  unfold nm_emplace. destruct (nm_find k m) as [x|] eqn:E; [|apply nm_mem_set].
  destruct (name_eqb k' k) eqn:Q; auto. apply name_eqb_eq in Q. subst. unfold nm_mem. rewrite E. reflexivity.
Qed.
Lemma bloom_run_app a b x : bloom_run x (a ++ b) = obind (bloom_run x a) (fun y => bloom_run y b).
Proof.
  revert x. induction a as [|[n|] a IH]; intros x; cbn [app bloom_run obind]; auto.
  destruct (bloom_insert x n); cbn [obind]; auto.
Qed.
Lemma inserted_app_ins ops n m : In m (inserted (ops ++ [BIns n])) <-> m = n \/ In m (inserted ops).
Proof.
  unfold inserted. generalize (@nil name) as acc. induction ops as [|[x|] ops IH]; intros acc; simpl; auto.
  split; [intros [->|H]|intros [->|H]]; auto.
Qed.
Lemma inserted_clear ops l m : In m (inserted (ops ++ BClear :: map BIns l)) <-> In m l.
Proof.
  unfold inserted. generalize (@nil name) at 1 as acc. induction ops as [|[x|] ops IH]; intros acc; simpl; auto.
  assert (forall acc, In m (inserted_after acc (map BIns l)) <-> In m acc \/ In m l) as G.
  { clear. induction l as [|x l IH]; intros acc; simpl; [tauto|]. rewrite IH. simpl. tauto. }
  rewrite G. simpl. tauto.
Qed.
Lemma insert_all_run l : forall b, insert_all l b = bloom_run b (map BIns l).
Proof. induction l as [|p l IH]; intros b; simpl; auto. destruct (bloom_insert b p); simpl; auto. Qed.

(** ** What handlers do to prefixes, subscriptions and filter *)
Definition same_data (s s' : cs) : Prop :=
  c_prefixes s' = c_prefixes s /\ c_subs s' = c_subs s /\ c_bloom s' = c_bloom s.
Definition upd (l : list missing) : list cout := match l with [] => [] | _ => [CoUpdate l] end.
Definition silent (o : list cout) : Prop := Forall (fun x => forall l, x <> CoUpdate l) o.
(** a sequence of calls, all in [A] *)
Inductive did (A : list capi) : cs -> list cout -> cs -> Prop :=
| did_none s o s' : same_data s s' -> silent o -> did A s o s'
| did_sub s p v cb b s' : In (CSub p v cb) A -> nm_find p (c_prefixes s) = None ->
    bloom_insert (c_bloom s) p = Ok b ->
    c_prefixes s' = nm_set p v (c_prefixes s) -> c_subs s' = nm_emplace p tt (c_subs s) -> c_bloom s' = b ->
    did A s (if cb && negb (v =? 0) then [CoUpdate [mkMissing p v v 0]] else []) s'
| did_unsub s p b s' : In (CUnsub p) A -> nm_mem p (c_subs s) = true ->
    insert_all (nm_keys (nm_erase p (c_subs s))) (bloom_clear (c_bloom s)) = Ok b ->
    c_prefixes s' = nm_erase p (c_prefixes s) -> c_subs s' = nm_erase p (c_subs s) -> c_bloom s' = b ->
    did A s [] s'
| did_then s o1 s1 o2 s2 : did A s o1 s1 -> did A s1 o2 s2 -> did A s (o1 ++ o2) s2.
Lemma did_incl A B s o s' : (forall a, In a A -> In a B) -> did A s o s' -> did B s o s'.
Proof. 
  intros H D. induction D as [s o s' X Y|s p v cb b s' X Y Z P Q R|s p b s' X Y Z P Q R|s o1 s1 o2 s2 D1 I1 D2 I2].
  - apply did_none; auto.
  - eapply did_sub; eauto.
  - eapply did_unsub; eauto.
  - eapply did_then; eauto.
Qed.
Lemma same_refl s : same_data s s. Proof. unfold same_data; auto. Qed.
Lemma same_trans a b c : same_data a b -> same_data b c -> same_data a c.
Proof. unfold same_data. intuition congruence. Qed.
Lemma did_refl A s : did A s [] s.
Proof. apply did_none; [apply same_refl|constructor]. Qed.
Lemma send_hello_eq K s : send_hello K s =
  (cstart KHello (hello_prefix K) (cstop (c_hello s) s), [CoInterest KHello (hello_prefix K)], Ok tt).
Proof. reflexivity. Qed.
Lemma send_sync_eq K s : send_sync K s =
  match c_iblt s with
  | [] => (s, [], UB UbAssert)
  | _ => match append_bloom (sync_prefix K) (c_bloom s) with
         | Ok n1 => (cstart KSync (n1 ++ c_iblt s) (cstop (c_sync s) s), [CoInterest KSync (n1 ++ c_iblt s)], Ok tt)
         | Throw e => (s, [], Throw e) | UB u => (s, [], UB u) | Hang => (s, [], Hang)
         end
  end.
Proof.
  unfold send_sync. rewrite mbind_get. destruct (c_iblt s); [reflexivity|]. rewrite mbind_lift.
  destruct (append_bloom (sync_prefix K) (c_bloom s)); reflexivity.
Qed.
Lemma append_bloom_throw n b e : append_bloom n b <> Throw e.
Proof. unfold append_bloom, d_cast. destruct (d_trunc _) as [z|]; [destruct (Z.leb 0 z && _)%bool|]; discriminate. Qed.
Lemma add_sub_cases K p v cb s : 
  match nm_find p (c_prefixes s) with
  | Some _ => add_sub K p v cb s = (s, [], Ok false)
  | None => match bloom_insert (c_bloom s) p with
    | Ok b => add_sub K p v cb s =
       (cset_bloom b (cset_subs (nm_emplace p tt (c_subs s)) (cset_prefixes (nm_set p v (c_prefixes s)) s)),
        (if cb && negb (v =? 0) then [CoUpdate [mkMissing p v v 0]] else []), Ok true)
    | r => ~ fine (res (add_sub K p v cb s)) \/ exists e, r = Throw e
    end
  end.
Proof.
  unfold add_sub. rewrite mbind_get. destruct (nm_find p (c_prefixes s)); [reflexivity|].
  rewrite mbind_mod, mbind_lift. destruct (bloom_insert (c_bloom s) p) as [b|e|u|]; [|right; eauto|left; intros []..].
  rewrite mbind_mod. destruct (cb && negb (v =? 0)); reflexivity.
Qed.
Lemma remove_sub_cases p s :
  if nm_mem p (c_subs s) then
    match insert_all (nm_keys (nm_erase p (c_subs s))) (bloom_clear (c_bloom s)) with
    | Ok b => remove_sub p s =
       (cset_bloom b (cset_subs (nm_erase p (c_subs s)) (cset_prefixes (nm_erase p (c_prefixes s)) s)), [], Ok true)
    | r => ~ fine (res (remove_sub p s)) \/ exists e, r = Throw e
    end
  else remove_sub p s = (s, [], Ok false).
Proof.
  unfold remove_sub, is_subscribed. rewrite mbind_get. destruct (nm_mem p (c_subs s)); [|reflexivity].
  rewrite mbind_mod, mbind_lift.
  destruct (insert_all _ _) as [b|e|u|]; [|right; eauto|left; intros []..]. reflexivity.
Qed.
Lemma or_at_throw t : forall i m e, or_at t i m <> Throw e.
Proof.
  induction t as [|x t IH]; intros [|i] m e; simpl; try discriminate.
  destruct (or_at t i m) eqn:E; simpl; try discriminate. intros [= ->]. eapply IH; eauto.
Qed.
Lemma insert_throw b n e : bloom_insert b n <> Throw e.
Proof.
  unfold bloom_insert. destruct (insert_salts _ _ _ _) as [|e'| |] eqn:E; simpl; try discriminate.
  exfalso. clear - E. revert E. generalize (b_tab b) as t. induction (b_salt b) as [|x l IH]; intros t; simpl; [discriminate|].
  unfold insert_one, bit_index. destruct (b_size b =? 0); simpl; [discriminate|].
  destruct (or_at _ _ _) as [t'|e1| |] eqn:Q; simpl; try discriminate; [apply IH|]. intros _. eapply or_at_throw; eauto.
Qed.
Lemma insert_all_throw l : forall b e, insert_all l b <> Throw e.
Proof.
  induction l as [|p l IH]; simpl; intros b e; [discriminate|].
  destruct (bloom_insert b p) as [|e'| |] eqn:E; simpl; try discriminate; [apply IH|]. destruct (insert_throw _ _ _ E).
Qed.
Lemma silent_nil : silent []. Proof. constructor. Qed.
Lemma silent_one x : (forall l, x <> CoUpdate l) -> silent [x]. Proof. intros H. constructor; [exact H|constructor]. Qed.
Ltac silent := unfold silent; repeat constructor; discriminate.
Lemma same_start k n p s : same_data s (cstart k n (cstop p s)).
Proof. destruct k, p; split; auto; split; reflexivity. Qed.
Lemma call_did K a s : fine (res (call K a s)) -> (exists x, res (call K a s) = Ok x) /\ did [a] s (outs (call K a s)) (st (call K a s)).
Proof.
  destruct a as [p v cb|p| | |]; cbn [call].
  - pose proof (add_sub_cases K p v cb s) as C. unfold mbind. destruct (nm_find p (c_prefixes s)) as [x|] eqn:E.
    + rewrite C. intros _. split; [eexists; reflexivity|]. apply did_none; [apply same_refl|silent].
    + destruct (bloom_insert (c_bloom s) p) as [b|e|u|] eqn:B.
      * rewrite C. intros _. split; [eexists; reflexivity|]. cbn [memit outs st fst snd].
        match goal with |- did _ _ _ ?x => apply (did_then _ _ _ x _ x) end; [eapply did_sub; simpl; eauto|]. apply did_none; [apply same_refl|silent].
      * destruct (insert_throw _ _ _ B).
      * destruct C as [C|[e C]]; [|discriminate]. destruct (add_sub K p v cb s) as [[s1 o1] [x|e|u'|]]; simpl in *; tauto.
      * destruct C as [C|[e C]]; [|discriminate]. destruct (add_sub K p v cb s) as [[s1 o1] [x|e|u'|]]; simpl in *; tauto.
  - pose proof (remove_sub_cases p s) as C. unfold mbind. destruct (nm_mem p (c_subs s)) eqn:E.
    + destruct (insert_all _ _) as [b|e|u|] eqn:B.
      * rewrite C. intros _. split; [eexists; reflexivity|]. cbn [memit outs st fst snd].
        match goal with |- did _ _ ?o ?x => change o with ([] ++ o); apply (did_then _ _ _ x _ x) end; [eapply did_unsub; simpl; eauto|]. apply did_none; [apply same_refl|silent].
      * destruct (insert_all_throw _ _ _ B).
      * destruct C as [C|[e C]]; [|discriminate]. destruct (remove_sub p s) as [[s1 o1] [x|e|u'|]]; simpl in *; tauto.
      * destruct C as [C|[e C]]; [|discriminate]. destruct (remove_sub p s) as [[s1 o1] [x|e|u'|]]; simpl in *; tauto.
    + rewrite C. intros _. split; [eexists; reflexivity|]. apply did_none; [apply same_refl|silent].
  - rewrite send_hello_eq. intros _. split; [eexists; reflexivity|]. apply did_none; [apply same_start|silent].
  - rewrite send_sync_eq. destruct (c_iblt s); [intros []|]. destruct (append_bloom _ _) as [n1|e| |] eqn:E; [|destruct (append_bloom_throw _ _ _ E)|intros []..].
    intros _. split; [eexists; reflexivity|]. apply did_none; [apply same_start|silent].
  - intros _. split; [eexists; reflexivity|]. apply did_none; [|silent].
    destruct s as [? ? ? ? ? ? ? ? [h|] [y|] ? ? ? ?]; repeat split; reflexivity.
Qed.
Lemma calls_did K l : forall s, fine (res (calls K l s)) ->
  res (calls K l s) = Ok tt /\ did l s (outs (calls K l s)) (st (calls K l s)).
Proof.
  induction l as [|a l IH]; intros s; cbn [calls].
  - intros _. split; [reflexivity|apply did_refl].
  - unfold mbind. pose proof (call_did K a s) as C. destruct (call K a s) as [[s1 o1] r]. cbn [res outs st fst snd] in C.
    specialize (IH s1). destruct (calls K l s1) as [[s2 o2] r2]. cbn [res outs st fst snd] in *.
    destruct r as [x|e|u|]; cbn [res outs st fst snd]; [|intros F; destruct (C F) as [[y Y] _]; discriminate|intros []..].
    intros F. destruct C as [_ C]; [exact I|]. destruct IH as [I1 I2]; [exact F|]. split; [exact I1|].
    eapply did_then; [eapply did_incl; [|exact C]|eapply did_incl; [|exact I2]]; simpl; [intros b [<-|[]]; auto|auto].
Qed.

(** ** Received content *)
(** [c] offers number [v] for prefix [p] *)
Definition brings (names : list name) (p : name) (v : N) : Prop :=
  exists x, In (p ++ [x]) names /\ to_number x = Ok v.
Lemma name_split c last : name_get_minus c 1 = Ok last -> c = name_prefix_back c 1 ++ [last].
Proof.
  intros H. destruct c as [|x p _] using rev_ind.
  - discriminate.
  - rewrite name_get_minus_last in H. injection H as <-. rewrite name_prefix_back_snoc. reflexivity.
Qed.
Definition known (s : cs) : name -> option N := fun p => nm_find p (c_prefixes s).
Lemma cset_prefixes_id s : cset_prefixes (c_prefixes s) s = s.
Proof. destruct s; reflexivity. Qed.
Lemma one_more cur v : match cur with Some x => x < v | None => True end -> v < two64 ->
  w64 (seq0 cur + 1) = seq0 cur + 1.
Proof. intros H V. unfold w64. destruct cur as [x|]; simpl in *; [apply N.mod_small; lia|reflexivity]. Qed.
(** the loop of onSyncData *)
Definition taken (names : list name) (s : cs) (x : cs * list cout * outcome (list missing)) : Prop :=
  outs x = [] /\
  (exists m, st x = cset_prefixes m s /\ (nm_sorted (c_prefixes s) -> nm_sorted m)) /\
  (forall l, res x = Ok l -> report_chain (known s) l (known (st x))) /\
  (exists l, report_chain (known s) l (known (st x)) /\
     Forall (fun m => brings names (mi_prefix m) (mi_high m)) l).
Lemma taken_stop names s r : (forall l, r = Ok l -> l = []) -> taken names s (s, [], r).
Proof.
  intros H. unfold taken. cbn [outs st res fst snd]. split; [reflexivity|].
  split; [exists (c_prefixes s); split; [symmetry; apply cset_prefixes_id|auto]|].
  split; [intros l E; apply H in E as ->; intros q; reflexivity|]. exists []. split; [intros q; reflexivity|constructor].
Qed.
Lemma brings_cons c names p v : brings names p v -> brings (c :: names) p v.
Proof. intros (x & H & E). exists x. split; [right|]; auto. Qed.
Lemma taken_cons c names s x : taken names s x -> taken (c :: names) s x.
Proof.
  intros (A & B & C & l & D & E). split; auto. split; auto. split; auto. exists l. split; auto.
  eapply Forall_impl; [|exact E]. intros m. apply brings_cons.
Qed.
Lemma known_set p v s q : known (cset_prefixes (nm_set p v (c_prefixes s)) s) q =
  if name_eqb q p then Some v else known s q.
Proof. unfold known. cbn [c_prefixes cset_prefixes]. apply nm_find_set. Qed.
Lemma take_sync_inv names : forall s, taken names s (take_sync names s).
Proof.
  induction names as [|c names IH]; intros s; cbn [take_sync].
  - apply taken_stop. congruence.
  - rewrite mbind_lift. destruct (name_get_minus c 1) as [last|e|u|] eqn:Eg; try (apply taken_stop; discriminate).
    rewrite mbind_lift. destruct (to_number last) as [v|e|u|] eqn:Ev; try (apply taken_stop; discriminate).
    cbv zeta. rewrite mbind_get. apply name_split in Eg. set (p := name_prefix_back c 1) in *.
    destruct (match nm_find p (c_prefixes s) with None => true | Some cur => cur <? v end) eqn:Hc; [|apply taken_cons, IH].
    assert (v < two64) as Hv by (eapply to_number_lt; eauto).
    rewrite mbind_mod. set (s1 := cset_prefixes (nm_set p v (c_prefixes s)) s).
    destruct (IH s1) as (A & (m & B1 & B2) & C & l & D & E). unfold mbind. destruct (take_sync names s1) as [[s2 o2] r2].
    cbn [outs st res fst snd] in *. subst o2.
    assert (match known s p with Some x => x < v | None => True end) as Hlt.
    { unfold known. destruct (nm_find p (c_prefixes s)); [apply N.ltb_lt; exact Hc|exact I]. }
    assert (forall l', report_chain (known s1) l' (known s2) ->
      report_chain (known s) (mkMissing p (w64 (seq0 (known s p) + 1)) v 0 :: l') (known s2)) as G.
    { intros l' R. cbn [report_chain mi_low mi_prefix mi_high]. split; [apply one_more with (v := v); auto|]. split; [exact Hlt|].
      eapply report_chain_ext; [|intros q; reflexivity|exact R]. intros q. apply known_set. }
    assert (exists l', report_chain (known s) l' (known s2) /\
      Forall (fun m => brings (c :: names) (mi_prefix m) (mi_high m)) l') as D'.
    { exists (mkMissing p (w64 (seq0 (known s p) + 1)) v 0 :: l). split; [apply G; exact D|]. constructor.
      - exists last. split; [left; exact Eg|exact Ev].
      - eapply Forall_impl; [|exact E]. intros m'. apply brings_cons. }
    assert (exists m, s2 = cset_prefixes m s /\ (nm_sorted (c_prefixes s) -> nm_sorted m)) as B'.
    { exists m. split; [rewrite B1; reflexivity|]. intros S. apply B2. cbn. apply nm_set_sorted; auto. }
    destruct r2 as [l2|e|u|]; unfold taken; cbn [mret outs st res fst snd];
      (split; [reflexivity|split; [exact B'|split; [|exact D']]]); try discriminate.
    intros l3 [= <-]. apply G. apply C. reflexivity.
Qed.
(** the loop of onHelloData *)
Definition htaken (names : list name) (s : cs) (x : cs * list cout * outcome (list missing * nmap N)) : Prop :=
  outs x = [] /\
  (exists m, st x = cset_prefixes m s /\ (nm_sorted (c_prefixes s) -> nm_sorted m)) /\
  (forall l, res x = Ok l -> report_chain (known s) (fst l) (known (st x)) /\
     Forall (fun m => nm_mem (mi_prefix m) (c_subs s) = true) (fst l)) /\
  (exists l, report_chain (known s) l (known (st x)) /\
     Forall (fun m => brings names (mi_prefix m) (mi_high m) /\ nm_mem (mi_prefix m) (c_subs s) = true /\
                      1 <= mi_high m) l).
Lemma htaken_stop names s r : (forall l, r = Ok l -> fst l = []) -> htaken names s (s, [], r).
Proof.
  intros H. unfold htaken. cbn [outs st res fst snd]. split; [reflexivity|].
  split; [exists (c_prefixes s); split; [symmetry; apply cset_prefixes_id|auto]|].
  split; [intros l E; apply H in E as ->; split; [intros q; reflexivity|constructor]|].
  exists []. split; [intros q; reflexivity|constructor].
Qed.
Lemma htaken_cons c names s x : htaken names s x -> htaken (c :: names) s x.
Proof.
  intros (A & B & C & l & D & E). split; auto. split; auto. split; auto. exists l. split; auto.
  eapply Forall_impl; [|exact E]. intros m (X & Y & Z). split; auto. apply brings_cons; auto.
Qed.
Lemma take_hello_inv names : forall av s, htaken names s (take_hello names av s).
Proof.
  induction names as [|c names IH]; intros av s; cbn [take_hello].
  - apply htaken_stop. intros l [= <-]. reflexivity.
  - rewrite mbind_lift. destruct (name_get_minus c 1) as [last|e|u|] eqn:Eg; try (apply htaken_stop; discriminate).
    rewrite mbind_lift. destruct (to_number last) as [v|e|u|] eqn:Ev; try (apply htaken_stop; discriminate).
    cbv zeta. rewrite mbind_get. apply name_split in Eg. set (p := name_prefix_back c 1) in *. unfold is_subscribed.
    set (cur := match nm_find p (c_prefixes s) with Some x => x | None => 0 end).
    destruct (nm_mem p (c_subs s) && (cur <? v)) eqn:Hc; [|apply htaken_cons, IH].
    apply andb_true_iff in Hc as [Hm Hc]. apply N.ltb_lt in Hc.
    assert (v < two64) as Hv by (eapply to_number_lt; eauto).
    rewrite mbind_mod. set (s1 := cset_prefixes (nm_set p v (c_prefixes s)) s).
    destruct (IH (nm_emplace p v av) s1) as (A & (m & B1 & B2) & C & l & D & E). unfold mbind.
    destruct (take_hello names (nm_emplace p v av) s1) as [[s2 o2] r2].
    cbn [outs st res fst snd] in *. subst o2.
    assert (cur = seq0 (known s p)) as Ecur by reflexivity.
    assert (match known s p with Some x => x < v | None => True end) as Hlt.
    { unfold cur in Hc. unfold known. destruct (nm_find p (c_prefixes s)); [exact Hc|exact I]. }
    assert (forall l', report_chain (known s1) l' (known s2) ->
      report_chain (known s) (mkMissing p (w64 (cur + 1)) v 0 :: l') (known s2)) as G.
    { intros l' R. rewrite Ecur. cbn [report_chain mi_low mi_prefix mi_high]. split; [apply one_more with (v := v); auto|]. split; [exact Hlt|].
      eapply report_chain_ext; [|intros q; reflexivity|exact R]. intros q. apply known_set. }
    assert (exists l', report_chain (known s) l' (known s2) /\
      Forall (fun m => brings (c :: names) (mi_prefix m) (mi_high m) /\ nm_mem (mi_prefix m) (c_subs s) = true /\ 1 <= mi_high m) l') as D'.
    { exists (mkMissing p (w64 (cur + 1)) v 0 :: l). split; [apply G; exact D|]. constructor.
      - split; [exists last; split; [left; exact Eg|exact Ev]|]. split; [exact Hm|]. cbn [mi_high]. lia.
      - eapply Forall_impl; [|exact E]. intros m' (X & Y & Z). split; [apply brings_cons; exact X|]. split; [exact Y|exact Z]. }
    assert (exists m, s2 = cset_prefixes m s /\ (nm_sorted (c_prefixes s) -> nm_sorted m)) as B'.
    { exists m. split; [rewrite B1; reflexivity|]. intros S. apply B2. cbn. apply nm_set_sorted; auto. }
    destruct r2 as [l2|e|u|]; unfold htaken; cbn [mret outs st res fst snd];
      (split; [reflexivity|split; [exact B'|split; [|exact D']]]); try discriminate.
    intros l3 [= <-]. cbn [fst]. destruct (C _ eq_refl) as [C1 C2]. split; [apply G, C1|]. constructor; auto.
Qed.

(** ** One event *)
Inductive step_view (Y : Prop) (e : cev) (s : cs) : list cout -> cs -> outcome unit -> Prop :=
| sv_calls o s' r : did (calls_of e) s o s' -> (exists x, r = Ok x) -> step_view Y e s o s' r
| sv_throw s' r buf e' : In buf (content_of e) -> state_of_buffer buf = Throw e' -> same_data s s' ->
    r = Throw e' -> step_view Y e s [] s' r
| sv_sync_throw s0 s1 r names buf e' : In buf (content_of e) -> state_of_buffer buf = Ok names -> same_data s s0 ->
    take_sync names s0 = (s1, [], Throw e') -> r = Throw e' -> Y -> step_view Y e s [] s1 r
| sv_hello_throw s0 s1 r names buf e' : In buf (content_of e) -> state_of_buffer buf = Ok names -> same_data s s0 ->
    take_hello names [] s0 = (s1, [], Throw e') -> r = Throw e' -> step_view Y e s [] s1 r
| sv_sync s0 s1 s' names buf l o r : In buf (content_of e) -> state_of_buffer buf = Ok names -> same_data s s0 ->
    take_sync names s0 = (s1, [], Ok l) -> did (calls_of e) s1 o s' -> r = Ok tt -> Y ->
    step_view Y e s (upd l ++ o) s' r
| sv_hello s0 s1 s2 s' names buf l av o1 o2 r : In buf (content_of e) -> state_of_buffer buf = Ok names ->
    same_data s s0 -> take_hello names [] s0 = (s1, [], Ok (l, av)) -> did (calls_of e) s1 o1 s2 ->
    did (calls_of e) s2 o2 s' -> r = Ok tt ->
    step_view Y e s (CoHello av :: o1 ++ upd l ++ o2) s' r.
Lemma mbind_run {A B} (m : CM A) (f : A -> CM B) s s1 o1 r1 : m s = (s1, o1, r1) ->
  mbind m f s = match r1 with
  | Ok a => let '(s2, o2, r2) := f a s1 in (s2, o1 ++ o2, r2)
  | Throw e => (s1, o1, Throw e) | UB u => (s1, o1, UB u) | Hang => (s1, o1, Hang) end.
Proof. unfold mbind. intros ->. reflexivity. Qed.
Lemma send_sync_did K A s : fine (res (send_sync K s)) ->
  res (send_sync K s) = Ok tt /\ did A s (outs (send_sync K s)) (st (send_sync K s)).
Proof.
  rewrite send_sync_eq. destruct (c_iblt s); [intros []|].
  destruct (append_bloom _ _) as [n1|e| |] eqn:E; [|destruct (append_bloom_throw _ _ _ E)|intros []..].
  intros _. split; [reflexivity|]. apply did_none; [apply same_start|silent].
Qed.
Lemma step_view_ok Y e s o s' : did (calls_of e) s o s' -> step_view Y e s o s' (Ok tt).
Proof. intros D. apply sv_calls; eauto. Qed.
Lemma on_hello_view Y K buf sc1 sc2 i s : fine (res (on_hello_data K buf sc1 sc2 s)) ->
  step_view Y (CeContent i buf sc1 sc2) s (outs (on_hello_data K buf sc1 sc2 s)) (st (on_hello_data K buf sc1 sc2 s))
    (res (on_hello_data K buf sc1 sc2 s)).
Proof.
  unfold on_hello_data. rewrite mbind_mod, mbind_lift. set (s0 := cset_iblt _ s).
  assert (same_data s s0) as S0 by (repeat split).
  destruct (state_of_buffer_outcomes buf) as [[names E]|[E|E]]; rewrite E.
  2,3: intros _; eapply sv_throw; [left; reflexivity|exact E|exact S0|reflexivity].
  destruct (take_hello_inv names [] s0) as (T1 & T2 & T3 & _).
  destruct (take_hello names [] s0) as [[s1 o1] r1] eqn:T.
  cbn [outs st res fst snd] in *. subst o1. rewrite (mbind_run _ _ _ _ _ _ T).
  destruct r1 as [[l av]|e1|u1|]; [|intros _; eapply sv_hello_throw; [left; reflexivity|eauto..]|intros []..].
  cbn [fst snd]. rewrite mbind_emit. pose proof (calls_did K sc1 s1) as C1.
  destruct (calls K sc1 s1) as [[s2 o2] r2] eqn:EC. rewrite (mbind_run _ _ _ _ _ _ EC).
  cbn [outs st res fst snd] in *.
  destruct r2 as [[]|e2|u2|]; [|intros F; destruct (C1 F) as [X _]; discriminate|intros []..].
  destruct (C1 I) as [_ D1]. clear C1.
  assert (forall o3 s3, did (calls_of (CeContent i buf sc1 sc2)) s2 o3 s3 ->
    step_view Y (CeContent i buf sc1 sc2) s (CoHello av :: o2 ++ upd l ++ o3) s3 (Ok tt)) as V.
  { intros o3 s3 D3. eapply sv_hello; [left; reflexivity|eauto..]. eapply did_incl; [|exact D1].
    intros a Ha. apply in_or_app. auto. }
  destruct l as [|m l].
  - cbn [mret outs st res fst snd]. intros _. apply (V [] s2). apply did_refl.
  - rewrite mbind_emit. pose proof (calls_did K sc2 s2) as C2. destruct (calls K sc2 s2) as [[s3 o3] r3].
    cbn [outs st res fst snd] in *. intros F. destruct (C2 F) as [-> D2]. apply (V o3 s3).
    eapply did_incl; [|exact D2]. intros a Ha. apply in_or_app. auto.
Qed.
Lemma on_csync_view (Y : Prop) K buf sc1 sc2 i s : Y -> fine (res (on_csync_data K buf sc2 s)) ->
  step_view Y (CeContent i buf sc1 sc2) s (outs (on_csync_data K buf sc2 s)) (st (on_csync_data K buf sc2 s))
    (res (on_csync_data K buf sc2 s)).
Proof.
  intros HY. unfold on_csync_data. rewrite mbind_mod, mbind_lift. set (s0 := cset_iblt _ s).
  assert (same_data s s0) as S0 by (repeat split).
  destruct (state_of_buffer_outcomes buf) as [[names E]|[E|E]]; rewrite E.
  2,3: intros _; eapply sv_throw; [left; reflexivity|exact E|exact S0|reflexivity].
  destruct (take_sync_inv names s0) as (T1 & T2 & T3 & _).
  destruct (take_sync names s0) as [[s1 o1] r1] eqn:T.
  cbn [outs st res fst snd] in *. subst o1. rewrite (mbind_run _ _ _ _ _ _ T).
  destruct r1 as [l|e1|u1|]; [|intros _; eapply sv_sync_throw; [left; reflexivity|eauto..]|intros []..].
  assert (forall o3 s3, did (calls_of (CeContent i buf sc1 sc2)) s1 o3 s3 ->
    step_view Y (CeContent i buf sc1 sc2) s (upd l ++ o3) s3 (Ok tt)) as V.
  { intros o3 s3 D3. eapply sv_sync; [left; reflexivity|eauto..]. }
  destruct l as [|m l].
  - rewrite mbind_ret. pose proof (send_sync_did K (calls_of (CeContent i buf sc1 sc2)) s1) as SS.
    destruct (send_sync K s1) as [[s3 o3] r3]. cbn [outs st res fst snd app] in *. intros F.
    destruct (SS F) as [-> D]. apply (V o3 s3 D).
  - rewrite mbind_assoc, mbind_emit. pose proof (calls_did K sc2 s1) as C1. unfold mbind. destruct (calls K sc2 s1) as [[s2 o2] r2].
    cbn [outs st res fst snd] in *.
    destruct r2 as [[]|e2|u2|]; [|intros F; destruct (C1 F) as [X _]; discriminate|intros []..].
    destruct (C1 I) as [_ D1]. pose proof (send_sync_did K (calls_of (CeContent i buf sc1 sc2)) s2) as SS.
    destruct (send_sync K s2) as [[s3 o3] r3]. cbn [outs st res fst snd app] in *. intros F.
    destruct (SS F) as [-> D]. apply (V (o2 ++ o3) s3). eapply did_then; [eapply did_incl; [|exact D1]|exact D].
    intros a Ha. apply in_or_app. auto.
Qed.
Lemma same_view Y e s s0 o s' r : same_data s s0 -> step_view Y e s0 o s' r -> step_view Y e s o s' r.
Proof.
  intros S V. assert (forall A o s', did A s0 o s' -> did A s o s') as G.
  { intros A o1 s1 D. change o1 with ([] ++ o1). eapply did_then; [|exact D]. apply did_none; [exact S|silent]. }
  destruct V; try match goal with H : same_data s0 _ |- _ => apply (same_trans _ _ _ S) in H; clear S end.
  - apply sv_calls; auto.
  - eapply sv_throw; eauto.
  - eapply sv_sync_throw; eauto.
  - eapply sv_hello_throw; eauto.
  - eapply sv_sync; eauto.
  - eapply sv_hello; eauto.
Qed.
(** [e] completes the fetch of a sync reply *)
Definition is_sync_reply (e : cev) (s : cs) : Prop :=
  exists i n buf sc1 sc2, e = CeContent i buf sc1 sc2 /\ cfetch i (c_live s) = Some (KSync, n).
Lemma c_step_view K e s : fine (res (c_step K e s)) ->
  step_view (is_sync_reply e s) e s (outs (c_step K e s)) (st (c_step K e s)) (res (c_step K e s)).
Proof.
  assert (forall o s', same_data s s' -> silent o -> step_view (is_sync_reply e s) e s o s' (Ok tt)) as Q.
  { intros o s' S O. apply step_view_ok, did_none; auto. }
  assert (forall e', e' = e -> forall s0, same_data s s0 -> fine (res (send_sync K s0)) ->
    step_view (is_sync_reply e s) e s (outs (send_sync K s0)) (st (send_sync K s0)) (res (send_sync K s0))) as QS.
  { intros e' _ s0 S F. destruct (send_sync_did K (calls_of e) s0 F) as [-> D]. eapply same_view; [exact S|]. apply step_view_ok, D. }
  destruct e as [a|i d|i buf sc1 sc2|i to|dt|i]; cbn [c_step].
  - intros F. destruct (call_did K a s F) as [R D]. apply sv_calls; auto.
  - rewrite mbind_get. destruct (cfetch i (c_live s)) as [[[] n]|]; [..|intros _; apply Q; [apply same_refl|silent]].
    + destruct (d_final d); intros _; (apply Q; [repeat split|silent]).
    + destruct (d_final d); [rewrite mbind_mod|rewrite mbind_ret]; rewrite mbind_get; destruct (is_nack _);
          intros _; rewrite ?send_hello_eq; (apply Q; [|silent]); try (repeat split; fail);
        (eapply same_trans; [|apply same_start]; repeat split).
  - rewrite mbind_get. destruct (cfetch i (c_live s)) as [[[] n]|] eqn:Fi; [..|intros _; apply Q; [apply same_refl|silent]].
    + unfold finish. rewrite mbind_mod. intros F. eapply same_view; [|apply on_hello_view; exact F]. repeat split.
    + unfold finish. rewrite mbind_mod. destruct (is_nack (c_type s)).
      * intros _. apply Q; [repeat split|silent].
      * intros F. eapply same_view; [|apply on_csync_view; [exists i, n, buf, sc1, sc2; auto|exact F]]. repeat split.
  - rewrite mbind_get. destruct (cfetch i (c_live s)) as [[[] n]|]; [..|intros _; apply Q; [apply same_refl|silent]].
    + unfold finish. rewrite mbind_mod. intros _. apply Q; [repeat split|silent].
    + unfold finish. rewrite mbind_mod. destruct to.
      * apply (QS _ eq_refl). repeat split.
      * intros _. apply Q; [repeat split|silent].
  - intros _. apply Q; [repeat split|silent].
  - rewrite mbind_get. destruct (nth_error (c_timers s) i) as [[dl k]|]; [|intros _; apply Q; [apply same_refl|silent]].
    destruct (dl <=? c_now s); [|intros _; apply Q; [apply same_refl|silent]]. rewrite mbind_mod. destruct k.
    + intros _. rewrite send_hello_eq. apply Q; [|silent]. eapply same_trans; [|apply same_start]. repeat split.
    + apply (QS _ eq_refl). repeat split.
Qed.

(** ** Reachable states *)
Lemma chain_known l : forall f g p, report_chain f l g -> f p <> None -> g p <> None.
Proof.
  induction l as [|m l IH]; simpl; intros f g p; [intros ->; auto|]. intros (_ & _ & C) H.
  apply (IH _ _ _ C). simpl. destruct (name_eqb p (mi_prefix m)); [discriminate|exact H].
Qed.
Record dinv (b0 : bloom) (s : cs) : Prop := mkDinv {
  di_prefixes : nm_sorted (c_prefixes s);
  di_subs : nm_sorted (c_subs s);
  di_known : forall p, nm_mem p (c_subs s) = true -> known s p <> None;
  di_bloom : exists ops, bloom_run b0 ops = Ok (c_bloom s) /\
               forall n, In n (inserted ops) <-> nm_mem n (c_subs s) = true }.
Lemma dinv_same b0 s s' : same_data s s' -> dinv b0 s -> dinv b0 s'.
Proof. intros (A & B & C) [H1 H2 H3 H4]. constructor; unfold known in *; rewrite ?A, ?B, ?C; auto. Qed.
Lemma dinv_chain b0 s m l : dinv b0 s -> nm_sorted m ->
  report_chain (known s) l (known (cset_prefixes m s)) -> dinv b0 (cset_prefixes m s).
Proof.
  intros [H1 H2 H3 H4] S R. constructor; auto. intros p Hp. apply (chain_known _ _ _ _ R). apply H3. exact Hp.
Qed.
Lemma mem_find_some {V} k (m : nmap V) : nm_mem k m = true <-> nm_find k m <> None.
Proof. unfold nm_mem. destruct (nm_find k m); split; try discriminate; try congruence; auto. Qed.
Lemma dinv_did b0 A s o s' : did A s o s' -> dinv b0 s -> dinv b0 s'.
Proof.
  induction 1 as [s o s' X Y|s p v cb b s' X Y Z P Q R|s p b s' X Y Z P Q R|s o1 s1 o2 s2 D1 I1 D2 I2]; intros D.
  - eapply dinv_same; eauto.
  - destruct D as [H1 H2 H3 (ops & B1 & B2)]. constructor.
    + rewrite P. apply nm_set_sorted; auto.
    + rewrite Q. apply nm_emplace_sorted; auto.
    + intros q. rewrite Q, nm_mem_emplace. unfold known. rewrite P, nm_find_set. destruct (name_eqb q p); [discriminate|apply H3].
    + exists (ops ++ [BIns p]). split.
      * rewrite bloom_run_app, B1. cbn [obind bloom_run]. rewrite Z, R. reflexivity.
      * intros n. rewrite inserted_app_ins, Q, nm_mem_emplace, B2, orb_true_iff, name_eqb_eq. reflexivity.
  - destruct D as [H1 H2 H3 (ops & B1 & B2)]. constructor.
    + rewrite P. apply nm_erase_sorted; auto.
    + rewrite Q. apply nm_erase_sorted; auto.
    + intros q. rewrite Q, mem_find_some. unfold known. rewrite P, !nm_find_erase by auto.
      destruct (name_eqb q p); [congruence|]. intros M. apply H3. apply mem_find_some. exact M.
    + exists (ops ++ BClear :: map BIns (nm_keys (nm_erase p (c_subs s)))). split.
      * rewrite bloom_run_app, B1. cbn [obind bloom_run]. rewrite <- insert_all_run, Z, R. reflexivity.
      * intros n. rewrite inserted_clear, Q, nm_In_keys, nm_mem_find. reflexivity.
  - auto.
Qed.
Lemma dinv_step b0 K e s : fine (res (c_step K e s)) -> dinv b0 s -> dinv b0 (st (c_step K e s)).
Proof.
  intros F D. pose proof (c_step_view K e s F) as V.
  assert (forall names s0 s1 x, same_data s s0 -> take_sync names s0 = (s1, [], x) -> dinv b0 s1) as TS.
  { intros names s0 s1 x S T. apply (dinv_same _ _ _ S) in D. destruct (take_sync_inv names s0) as (_ & (m & B1 & B2) & _ & l & C & _).
    rewrite T in *. cbn [st fst snd] in *. subst s1. eapply dinv_chain; [exact D| |exact C]. apply B2, D. }
  assert (forall names s0 s1 x, same_data s s0 -> take_hello names [] s0 = (s1, [], x) -> dinv b0 s1) as TH.
  { intros names s0 s1 x S T. apply (dinv_same _ _ _ S) in D. destruct (take_hello_inv names [] s0) as (_ & (m & B1 & B2) & _ & l & C & _).
    rewrite T in *. cbn [st fst snd] in *. subst s1. eapply dinv_chain; [exact D| |exact C]. apply B2, D. }
  destruct V as [o s' r Di _|s' r buf e' _ _ S _|s0 s1 r names buf e' _ _ S T _|s0 s1 r names buf e' _ _ S T _
    |s0 s1 s' names buf l o r _ _ S T Di _|s0 s1 s2 s' names buf l av o1 o2 r _ _ S T D1 D2 _]; eauto.
  - eapply dinv_did; eauto.
  - eapply dinv_same; eauto.
  - eapply dinv_did; eauto.
  - eapply dinv_did; [exact D2|]. eapply dinv_did; eauto.
Qed.

Lemma linv_send_hello K : pres linv (send_hello K).
Proof. intros s L _. rewrite send_hello_eq. apply linv_start_hello, L. Qed.
Lemma linv_send_sync K : pres linv (send_sync K).
Proof.
  intros s L. rewrite send_sync_eq. destruct (c_iblt s); [intros []|].
  destruct (append_bloom _ _) as [n1|e| |]; try (intros _; exact L). intros _. apply linv_start_sync, L.
Qed.
Lemma linv_stop_all s : linv s -> linv (st (stop_all s)).
Proof.
  intros L. unfold stop_all, mmod, st. cbn [fst snd].
  set (s1 := cstop (c_sync (cset_timers [] s)) (cset_timers [] s)).
  assert (linv s1) as L1. { apply linv_stop. eapply linv_same; [..|exact L]; reflexivity. }
  assert (forall i n, ~ In (i, (KSync, n)) (c_live s1)) as N1.
  { intros i n H. pose proof (li_sync _ L1 _ _ H) as E. unfold s1, cstop in H, E. simpl in H, E. destruct (c_sync s) as [j|] eqn:Hs; simpl in H, E.
    - apply without_In in H as [_ H]. simpl in H. congruence.
    - congruence. }
  assert (linv (cset_sync None s1)) as L2.
  { constructor; simpl; try apply L1; try discriminate. intros i n H. destruct (N1 i n H). }
  set (s2 := cset_sync None s1) in *. change (c_hello s2) with (c_hello s2). set (s3 := cstop (c_hello s2) s2).
  assert (linv s3) as L3 by (apply linv_stop; exact L2).
  assert (forall i n, ~ In (i, (KHello, n)) (c_live s3)) as N3.
  { intros i n H. pose proof (li_hello _ L3 _ _ H) as E. unfold s3, cstop in H, E. destruct (c_hello s2) as [j|] eqn:Hs; cbn [cset_live c_live c_hello] in H, E.
    - apply without_In in H as [_ H]. simpl in H. congruence.
    - congruence. }
  clearbody s3. constructor; cbn [c_live c_hello c_sync c_started cset_hello]; try apply L3; try discriminate.
  intros i n H. destruct (N3 i n H).
Qed.
Lemma linv_neutral (f : cs -> cs) : (forall s, c_live (f s) = c_live s /\ c_hello (f s) = c_hello s /\ c_sync (f s) = c_sync s /\ c_started (f s) = c_started s) ->
  pres linv (mmod f).
Proof. intros H. apply pres_mod. intros s L. destruct (H s) as (A & B & C & D). eapply linv_same; eauto. Qed.
Ltac neutral := apply linv_neutral; intros; repeat split; reflexivity.
Lemma linv_call K a : pres linv (call K a).
Proof.
  destruct a as [p v cb|p| | |]; cbn [call].
  - apply pres_bind; [|intros; apply pres_emit]. unfold add_sub. apply pres_get. intros s. destruct (nm_find p (c_prefixes s)); [apply pres_ret|].
    revert s. intros s0. set (b := bloom_insert (c_bloom s0) p). clearbody b. generalize s0.
    change (pres linv (mmod (fun s => cset_subs (nm_emplace p tt (c_subs s)) (cset_prefixes (nm_set p v (c_prefixes s)) s)) ;;
      mlet b <- mlift b; mmod (cset_bloom b) ;; (if cb && negb (v =? 0) then memit [CoUpdate [mkMissing p v v 0]] else mret tt) ;; mret true)).
    apply pres_bind; [neutral|intros _]. apply pres_bind; [apply pres_lift|intros b']. apply pres_bind; [neutral|intros _].
    apply pres_bind; [destruct (_ && _); [apply pres_emit|apply pres_ret]|intros _]. apply pres_ret.
  - apply pres_bind; [|intros; apply pres_emit]. unfold remove_sub. apply pres_get. intros s. destruct (is_subscribed p s); [|apply pres_ret].
    set (b := insert_all _ _). clearbody b. revert s.
    change (pres linv (mmod (fun s => cset_subs (nm_erase p (c_subs s)) (cset_prefixes (nm_erase p (c_prefixes s)) s)) ;;
      mlet b <- mlift b; mmod (cset_bloom b) ;; mret true)).
    apply pres_bind; [neutral|intros _]. apply pres_bind; [apply pres_lift|intros b']. apply pres_bind; [neutral|intros _]. apply pres_ret.
  - apply linv_send_hello.
  - apply linv_send_sync.
  - intros s L _. apply linv_stop_all, L.
Qed.
Lemma linv_calls K l : pres linv (calls K l).
Proof. induction l as [|a l IH]; cbn [calls]; [apply pres_ret|]. apply pres_bind; [apply linv_call|intros _; exact IH]. Qed.
Lemma linv_take_sync names : pres linv (take_sync names).
Proof. intros s L _. destruct (take_sync_inv names s) as (_ & (m & -> & _) & _). eapply linv_same; [..|exact L]; reflexivity. Qed.
Lemma linv_take_hello names av : pres linv (take_hello names av).
Proof. intros s L _. destruct (take_hello_inv names av s) as (_ & (m & -> & _) & _). eapply linv_same; [..|exact L]; reflexivity. Qed.
Lemma linv_finish' i : pres linv (finish i).
Proof. apply pres_mod. intros s. apply linv_finish. Qed.
Lemma linv_schedule K k : pres linv (cschedule K k).
Proof. neutral. Qed.
Lemma linv_on_hello K buf a b : pres linv (on_hello_data K buf a b).
Proof.
  unfold on_hello_data. apply pres_bind; [neutral|intros _]. apply pres_bind; [apply pres_lift|intros names].
  apply pres_bind; [apply linv_take_hello|intros x]. apply pres_bind; [apply pres_emit|intros _]. apply pres_bind; [apply linv_calls|intros _].
  destruct (fst x); [apply pres_ret|]. apply pres_bind; [apply pres_emit|intros _]. apply linv_calls.
Qed.
Lemma linv_on_sync K buf a : pres linv (on_csync_data K buf a).
Proof.
  unfold on_csync_data. apply pres_bind; [neutral|intros _]. apply pres_bind; [apply pres_lift|intros names].
  apply pres_bind; [apply linv_take_sync|intros l]. apply pres_bind; [|intros _; apply linv_send_sync].
  destruct l; [apply pres_ret|]. apply pres_bind; [apply pres_emit|intros _]. apply linv_calls.
Qed.
Lemma pres_get' (P : cs -> Prop) {B} (f : cs -> CM B) : (forall s, pres P (f s)) -> pres P (mbind mget f).
Proof. intros H s Hs. rewrite mbind_get. apply H. exact Hs. Qed.
Lemma linv_step K e : pres linv (c_step K e).
Proof.
  destruct e as [a|i d|i buf sc1 sc2|i to|dt|i]; cbn [c_step].
  - apply linv_call.
  - apply pres_get'. intros s. destruct (cfetch i (c_live s)) as [[[] n]|]; [..|apply pres_ret].
    + destruct (d_final d); [neutral|apply pres_ret].
    + apply pres_bind; [destruct (d_final d); [neutral|apply pres_ret]|intros _]. apply pres_get'. intros s1.
      destruct (is_nack _); [apply linv_send_hello|apply pres_ret].
  - apply pres_get'. intros s. destruct (cfetch i (c_live s)) as [[[] n]|]; [..|apply pres_ret].
    + apply pres_bind; [apply linv_finish'|intros _; apply linv_on_hello].
    + apply pres_bind; [apply linv_finish'|intros _]. destruct (is_nack _); [neutral|apply linv_on_sync].
  - apply pres_get'. intros s. destruct (cfetch i (c_live s)) as [[[] n]|]; [..|apply pres_ret].
    + apply pres_bind; [apply linv_finish'|intros _; apply linv_schedule].
    + apply pres_bind; [apply linv_finish'|intros _]. destruct to; [apply linv_send_sync|apply linv_schedule].
  - neutral.
  - apply pres_get'. intros s. destruct (nth_error _ _) as [[dl k]|]; [|apply pres_ret]. destruct (dl <=? _); [|apply pres_ret].
    apply pres_bind; [neutral|intros _]. destruct k; [apply linv_send_hello|apply linv_send_sync].
Qed.

Lemma creaches_inv K evs s o : creaches K evs s o ->
  exists b0, bloom_new (cc_libm K) (cc_count K) (cc_rate K) = Ok b0 /\ dinv b0 s /\ linv s.
Proof.
  unfold creaches, c_start, c_new. destruct (bloom_new _ _ _) as [b0|e|u|] eqn:E; try discriminate.
  cbn [obind]. intros R. exists b0. split; [reflexivity|]. revert R.
  set (s0 := mkCS _ _ _ _ _ _ _ _ _ _ _ _ _ _).
  assert (dinv b0 s0 /\ linv s0) as H0.
  { split.
    - constructor; simpl; try apply nm_sorted_nil; try discriminate. exists []. split; [reflexivity|]. intros n. split; [intros []|discriminate].
    - constructor; simpl; try contradiction; try discriminate. constructor. }
  clearbody s0. clear E. revert s0 H0 o. unfold c_run. induction evs as [|e evs IH]; intros s0 [D L] o; cbn [run].
  - intros [= -> _]. auto.
  - pose proof (dinv_step b0 K e s0) as D1. pose proof (linv_step K e s0 L) as L1.
    destruct (c_step K e s0) as [[s1 o1] r1]. cbn [res st outs fst snd] in *.
    destruct r1 as [x|x|x|]; try discriminate; (destruct (run _ s1 evs) as [[s2 o2]|] eqn:R; [|discriminate]);
      intros [= -> _]; (eapply IH; [|exact R]); split; auto; (apply D1 || apply L1); auto; exact I.
Qed.
Lemma creaches_snoc K evs e s' o' : creaches K (evs ++ [e]) s' o' ->
  exists s o o1 r, creaches K evs s o /\ c_step K e s = (s', o1, r) /\ o' = o ++ o1 /\ fine r.
Proof.
  unfold creaches, c_start. destruct (c_new K) as [s0|x|x|]; try discriminate. unfold c_run. rewrite run_app.
  destruct (run (c_step K) s0 evs) as [[s1 o1]|]; [|discriminate]. cbn [run].
  destruct (c_step K e s1) as [[s2 o2] [x|x|x|]] eqn:E; try discriminate; intros [= <- <-];
    (exists s1, o1, o2; eexists; split; [reflexivity|]; split; [exact E|]; split; [|exact I]; rewrite app_nil_r; reflexivity).
Qed.
Lemma creaches_step K evs e s o s' o' r : creaches K evs s o -> c_step K e s = (s', o', r) -> fine r ->
  creaches K (evs ++ [e]) s' (o ++ o').
Proof.
  unfold creaches, c_start. destruct (c_new K) as [s0|x|x|]; try discriminate. unfold c_run. rewrite run_app.
  intros ->. cbn [run]. intros -> F. destruct r; try destruct F; rewrite app_nil_r; reflexivity.
Qed.

(** ** Values *)
Lemma did_values b0 A s o s' p v : did A s o s' -> dinv b0 s -> known s' p = Some v ->
  known s p = Some v \/ exists cb, In (CSub p v cb) A.
Proof.
  induction 1 as [s o s' (X & _) Y|s q w cb b s' X Y Z P Q R|s q b s' X Y Z P Q R|s o1 s1 o2 s2 D1 I1 D2 I2]; intros D.
  - unfold known. rewrite X. auto.
  - unfold known. rewrite P, nm_find_set. destruct (name_eqb p q) eqn:E; auto. apply name_eqb_eq in E. subst. intros [= <-]. eauto.
  - unfold known. rewrite P, nm_find_erase by apply D. destruct (name_eqb p q); [discriminate|auto].
  - intros H. destruct (I2 (dinv_did _ _ _ _ _ D1 D) H) as [G|G]; auto.
Qed.
Lemma chain_values l f g p v : report_chain f l g -> g p = Some v ->
  f p = Some v \/ exists m, In m l /\ mi_prefix m = p /\ mi_high m = v.
Proof.
  intros R E. assert ({f p = Some v} + {f p <> Some v}) as [Q|Q] by (decide equality; apply N.eq_dec); auto.
  right. destruct (report_chain_changed _ _ _ p R) as (m & M1 & M2 & M3); [congruence|]. exists m. rewrite E in M3. injection M3 as M3. auto.
Qed.
Lemma brings_offers e buf names p v : In buf (content_of e) -> state_of_buffer buf = Ok names -> brings names p v -> offers e p v.
Proof. intros A B (x & C & D). right. exists buf, names, x. auto. Qed.
Lemma step_values b0 K e s p v : fine (res (c_step K e s)) -> dinv b0 s -> known (st (c_step K e s)) p = Some v ->
  known s p = Some v \/ offers e p v.
Proof.
  intros F D. pose proof (c_step_view K e s F) as V. pose proof (dinv_step b0 K e s F D) as D'.
  assert (forall names s0 s1 x buf, In buf (content_of e) -> state_of_buffer buf = Ok names -> same_data s s0 ->
    take_sync names s0 = (s1, [], x) -> dinv b0 s1 /\ forall v, known s1 p = Some v -> known s p = Some v \/ offers e p v) as TS.
  { intros names s0 s1 x buf B1 B2 S T. pose proof (dinv_same _ _ _ S D) as D0.
    destruct (take_sync_inv names s0) as (_ & (m & M1 & M2) & _ & l & C & Fa).
    rewrite T in *. cbn [st fst snd] in *. subst s1. split; [eapply dinv_chain; [exact D0|apply M2, D0|exact C]|].
    intros w Hw. destruct (chain_values _ _ _ _ _ C Hw) as [H|(y & Y1 & <- & <-)].
    - left. rewrite <- H. unfold known. destruct S as [-> _]. reflexivity.
    - right. rewrite Forall_forall in Fa. eapply brings_offers; eauto. }
  assert (forall names s0 s1 x buf, In buf (content_of e) -> state_of_buffer buf = Ok names -> same_data s s0 ->
    take_hello names [] s0 = (s1, [], x) -> dinv b0 s1 /\ forall v, known s1 p = Some v -> known s p = Some v \/ offers e p v) as TH.
  { intros names s0 s1 x buf B1 B2 S T. pose proof (dinv_same _ _ _ S D) as D0.
    destruct (take_hello_inv names [] s0) as (_ & (m & M1 & M2) & _ & l & C & Fa).
    rewrite T in *. cbn [st fst snd] in *. subst s1. split; [eapply dinv_chain; [exact D0|apply M2, D0|exact C]|].
    intros w Hw. destruct (chain_values _ _ _ _ _ C Hw) as [H|(y & Y1 & <- & <-)].
    - left. rewrite <- H. unfold known. destruct S as [-> _]. reflexivity.
    - right. rewrite Forall_forall in Fa. eapply brings_offers; eauto. apply Fa. exact Y1. }
  assert (forall s1 o1 s2, did (calls_of e) s1 o1 s2 -> dinv b0 s1 -> (forall v, known s1 p = Some v -> known s p = Some v \/ offers e p v) ->
     forall v, known s2 p = Some v -> known s p = Some v \/ offers e p v) as G.
  { intros s1 o1 s2 Di D1 H w Hw. destruct (did_values _ _ _ _ _ _ _ Di D1 Hw) as [H1|H1]; auto. right. left. exact H1. }
  destruct V as [o s' r Di _|s' r buf e' _ _ S _|s0 s1 r names buf e' B1 B2 S T _|s0 s1 r names buf e' B1 B2 S T _
    |s0 s1 s' names buf l o r B1 B2 S T Di _|s0 s1 s2 s' names buf l av o1 o2 r B1 B2 S T D1 D2 _].
  - apply (G _ _ _ Di D). auto.
  - unfold known. destruct S as [-> _]. auto.
  - eapply TS; eauto.
  - eapply TH; eauto.
  - destruct (TS _ _ _ _ _ B1 B2 S T) as [X Y]. apply (G _ _ _ Di X Y).
  - destruct (TH _ _ _ _ _ B1 B2 S T) as [X Y]. apply (G _ _ _ D2); [eapply dinv_did; eauto|]. apply (G _ _ _ D1 X Y).
Qed.

(** ** Reports *)
Lemma creported_app p a b : creported p (a ++ b) = creported p a ++ creported p b.
Proof. induction a as [|[k n|av|l|r] a IH]; simpl; auto. rewrite IH, app_assoc. reflexivity. Qed.
Lemma creported_upd p l : creported p (upd l) = ranges_in p l.
Proof. destruct l; [reflexivity|]. unfold upd. simpl. apply app_nil_r. Qed.
Lemma creported_silent p o : silent o -> creported p o = [].
Proof. induction 1 as [|x o H _ IH]; [reflexivity|]. destruct x; simpl; auto. destruct (H l). reflexivity. Qed.
Lemma did_order b0 A s o s' p : did A s o s' -> dinv b0 s -> ~ In (CUnsub p) A ->
  (known s p <> None -> known s' p = known s p /\ creported p o = []) /\
  (known s p = None -> (known s' p = None /\ creported p o = []) \/
     exists v, known s' p = Some v /\ (exists cb, In (CSub p v cb) A) /\
       (creported p o = [] \/ (v <> 0 /\ creported p o = [(v, v)]))).
Proof.
  induction 1 as [s o s' (X & _) Y|s q w cb b s' X Y Z P Q R|s q b s' X Y Z P Q R|s o1 s1 o2 s2 D1 I1 D2 I2]; intros D N.
  - unfold known. rewrite X, (creported_silent p o Y). auto.
  - unfold known. rewrite P, nm_find_set. destruct (name_eqb p q) eqn:E.
    + apply name_eqb_eq in E. subst q. split; [congruence|]. intros _. right. exists w. split; auto. split; [eauto|].
      destruct cb; simpl; auto. destruct (N.eqb_spec w 0) as [W|W]; simpl; auto. right. split; auto.
      unfold ranges_in. simpl. rewrite name_eqb_refl. reflexivity.
    + assert (creported p (if cb && negb (w =? 0) then [CoUpdate [mkMissing q w w 0]] else []) = []) as ->; [|auto].
      destruct (cb && _); simpl; auto. unfold ranges_in. simpl. rewrite E. reflexivity.
  - unfold known. rewrite P, nm_find_erase by apply D. destruct (name_eqb p q) eqn:E; [|auto].
    apply name_eqb_eq in E. subst q. contradiction.
  - rewrite creported_app. specialize (I1 D N). specialize (I2 (dinv_did _ _ _ _ _ D1 D) N). destruct I1 as [A1 A2], I2 as [B1 B2].
    split.
    + intros H. destruct (A1 H) as [E1 ->]. destruct B1 as [E2 ->]; [congruence|]. split; [congruence|reflexivity].
    + intros H. destruct (A2 H) as [[E1 ->]|(v & E1 & V & [->|(W & ->)])].
      * exact (B2 E1).
      * destruct B1 as [E2 ->]; [congruence|]. right. exists v. rewrite E2. auto.
      * destruct B1 as [E2 ->]; [congruence|]. right. exists v. rewrite E2. auto.
Qed.
(** how the reports for [p] relate to the numbers known before and after *)
Record tells (p : name) (s : cs) (o : list cout) (s' : cs) : Prop := mkTells {
  te_sorted : StronglySorted (fun a b => snd a < fst b) (creported p o);
  te_range : forall r, In r (creported p o) -> seq0 (known s p) < fst r /\ snd r <= seq0 (known s' p);
  te_known : known s p <> None -> known s' p <> None;
  te_mono : seq0 (known s p) <= seq0 (known s' p) }.
Lemma SS_app (l1 l2 : list (N * N)) m : StronglySorted (fun a b => snd a < fst b) l1 ->
  StronglySorted (fun a b => snd a < fst b) l2 -> (forall r, In r l1 -> snd r <= m) -> (forall r, In r l2 -> m < fst r) ->
  StronglySorted (fun a b => snd a < fst b) (l1 ++ l2).
Proof.
  intros S1 S2 H1 H2. induction S1 as [|x l S IH F]; simpl; auto. constructor.
  - apply IH. intros r Hr. apply H1. right. exact Hr.
  - apply Forall_app. split; auto. apply Forall_forall. intros y Hy. specialize (H1 x (or_introl eq_refl)). specialize (H2 y Hy). lia.
Qed.
Lemma tells_trans p s o s1 o1 s2 : tells p s o s1 -> tells p s1 o1 s2 -> tells p s (o ++ o1) s2.
Proof.
  intros [A1 A2 A3 A4] [B1 B2 B3 B4]. constructor.
  - rewrite creported_app. apply SS_app with (m := seq0 (known s1 p)); auto.
    + intros r Hr. apply A2. exact Hr.
    + intros r Hr. apply B2. exact Hr.
  - intros r. rewrite creported_app, in_app_iff. intros [H|H].
    + destruct (A2 r H). split; lia.
    + destruct (B2 r H). split; lia.
  - auto.
  - lia.
Qed.
Lemma tells_nothing p s o s' : creported p o = [] -> (known s p <> None -> known s' p <> None) -> seq0 (known s p) <= seq0 (known s' p) ->
  tells p s o s'.
Proof. intros E A B. constructor; auto; rewrite E; [constructor|intros r []]. Qed.
Lemma tells_did b0 A s o s' p : did A s o s' -> dinv b0 s -> ~ In (CUnsub p) A -> tells p s o s'.
Proof.
  intros D Di N. destruct (did_order _ _ _ _ _ p D Di N) as [H1 H2].
  destruct (known s p) as [v|] eqn:E.
  - destruct H1 as [E1 E2]; [discriminate|]. apply tells_nothing; rewrite ?E1, ?E; auto; try congruence. lia.
  - destruct H2 as [[E1 E2]|(v & E1 & _ & [E2|(W & E2)])]; auto.
    + apply tells_nothing; rewrite ?E1, ?E; auto; try congruence. lia.
    + apply tells_nothing; rewrite ?E1, ?E; auto; try congruence. simpl. lia.
    + constructor; rewrite ?E1, ?E2, ?E; try congruence; simpl; try lia.
      * repeat constructor.
      * intros r [<-|[]]. simpl. lia.
Qed.
Lemma tells_chain p s l s' : report_chain (known s) l (known s') -> tells p s (upd l) s'.
Proof.
  intros R. destruct (report_chain_ranges _ _ _ p R) as [A B]. constructor; rewrite ?creported_upd; auto.
  - intros H. eapply chain_known; eauto.
  - eapply report_chain_mono; eauto.
Qed.
Lemma chain_In l : forall f g m, report_chain f l g -> In m l -> g (mi_prefix m) <> None.
Proof.
  induction l as [|x l IH]; simpl; intros f g m; [contradiction|]. intros (_ & _ & C) [<-|H]; [|eauto].
  apply (chain_known _ _ _ _ C). rewrite name_eqb_refl. discriminate.
Qed.
Lemma ranges_none p l : (forall m, In m l -> mi_prefix m <> p) -> ranges_in p l = [].
Proof.
  unfold ranges_in. induction l as [|m l IH]; simpl; auto. intros H. destruct (name_eqb p (mi_prefix m)) eqn:E.
  - apply name_eqb_eq in E. destruct (H m (or_introl eq_refl)). auto.
  - apply IH. intros x Hx. apply H. auto.
Qed.
Lemma tells_same p s s0 o s' : same_data s s0 -> tells p s0 o s' -> tells p s o s'.
Proof. intros [E _] [A B C D]. unfold known in *. rewrite E in *. constructor; auto. Qed.
Lemma step_tells b0 K e s p : fine (res (c_step K e s)) -> dinv b0 s -> ~ In (CUnsub p) (calls_of e) ->
  tells p s (outs (c_step K e s)) (st (c_step K e s)).
Proof.
  intros F D N. pose proof (c_step_view K e s F) as V. 
  destruct V as [o s' r Di _|s' r buf e' _ _ S _|s0 s1 r names buf e' B1 B2 S T _|s0 s1 r names buf e' B1 B2 S T _
    |s0 s1 s' names buf l o r B1 B2 S T Di _|s0 s1 s2 s' names buf l av o1 o2 r B1 B2 S T D1 D2 _].
  - eapply tells_did; eauto.
  - eapply tells_same; [exact S|]. apply tells_nothing; auto. lia.
  - apply (tells_same _ _ _ _ _ S). destruct (take_sync_inv names s0) as (_ & _ & _ & l & C & _). rewrite T in C. cbn [st fst snd] in C.
    apply tells_nothing; auto; [eapply chain_known; eauto|eapply report_chain_mono; eauto].
  - apply (tells_same _ _ _ _ _ S). destruct (take_hello_inv names [] s0) as (_ & _ & _ & l & C & _). rewrite T in C. cbn [st fst snd] in C.
    apply tells_nothing; auto; [eapply chain_known; eauto|eapply report_chain_mono; eauto].
  - apply (tells_same _ _ _ _ _ S). apply (dinv_same _ _ _ S) in D. destruct (take_sync_inv names s0) as (_ & (m & M1 & M2) & C & _). rewrite T in *.
    cbn [st res fst snd] in *. specialize (C l eq_refl). eapply tells_trans; [apply tells_chain, C|].
    eapply tells_did; [exact Di| |exact N]. subst s1. eapply dinv_chain; [exact D|apply M2, D|exact C].
  - apply (tells_same _ _ _ _ _ S). apply (dinv_same _ _ _ S) in D. destruct (take_hello_inv names [] s0) as (_ & (m & M1 & M2) & C & _). rewrite T in *.
    cbn [st res fst snd] in *. destruct (C _ eq_refl) as [C1 _]. cbn [fst] in C1.
    assert (dinv b0 s1) as Ds1 by (subst s1; eapply dinv_chain; [exact D|apply M2, D|exact C1]).
    rewrite app_assoc. change (CoHello av :: ?x) with ([CoHello av] ++ x). rewrite app_assoc.
    apply tells_trans with (s1 := s2); [|eapply tells_did; [exact D2|eapply dinv_did; eauto|exact N]].
    destruct (did_order _ _ _ _ _ p D1 Ds1 N) as [H1 H2].
    pose proof (tells_chain p _ _ _ C1) as TC. pose proof (tells_did _ _ _ _ _ _ D1 Ds1 N) as TD.
    destruct (known s1 p) as [v|] eqn:E.
    + destruct H1 as [E1 E2]; [discriminate|]. destruct TC as [A1 A2 A3 A4]. constructor; rewrite ?creported_app, ?E2, ?app_nil_r; cbn [creported app];
        rewrite ?E1; auto; unfold known in *; rewrite ?E in *; auto.
    + assert (creported p (upd l) = []) as Z.
      { rewrite creported_upd. apply ranges_none. intros y Hy Ey. apply (chain_In _ _ _ _ C1 Hy). rewrite Ey. exact E. }
      destruct TD as [A1 A2 A3 A4]. rewrite E in *. assert (known s0 p = None) as E0.
      { destruct (known s0 p) eqn:Q; auto. exfalso. apply (chain_known _ _ _ p C1); congruence. }
      constructor; rewrite ?creported_app, ?Z, ?app_nil_r; cbn [creported app]; rewrite ?E0; auto.
Qed.
(** every number that becomes known is reported, or was passed to addSubscription *)
Definition covers (p : name) (s : cs) (o : list cout) (s' : cs) (A : list capi) : Prop :=
  forall n, seq0 (known s p) < n <= seq0 (known s' p) ->
    (exists r, In r (creported p o) /\ fst r <= n <= snd r) \/
    (known s p = None /\ exists v cb, In (CSub p v cb) A /\ n <= v).
Lemma covers_did b0 A s o s' p : did A s o s' -> dinv b0 s -> ~ In (CUnsub p) A -> covers p s o s' A.
Proof.
  intros D Di N n H. destruct (did_order _ _ _ _ _ p D Di N) as [H1 H2]. destruct (known s p) as [v|] eqn:E.
  - destruct H1 as [E1 _]; [discriminate|]. rewrite E1 in H. simpl in H. lia.
  - right. split; auto. destruct H2 as [[E1 _]|(v & E1 & (cb & V) & _)]; auto; rewrite E1 in H; simpl in H; [lia|]. exists v, cb. split; auto. lia.
Qed.
Lemma step_covers b0 K e s s' o x p : c_step K e s = (s', o, Ok x) -> dinv b0 s -> ~ In (CUnsub p) (calls_of e) ->
  covers p s o s' (calls_of e).
Proof.
  intros Es D N. assert (fine (res (c_step K e s))) as F by (rewrite Es; exact I).
  pose proof (c_step_view K e s F) as V. rewrite Es in V. cbn [st outs res fst snd] in V.
  assert (forall s0 l s1 o1 s2 a, same_data s s0 -> report_chain (known s0) l (known s1) -> did (calls_of e) s1 o1 s2 -> dinv b0 s1 ->
     (forall r, In r (ranges_in p l) -> In r (creported p a)) -> (forall r, In r (creported p o1) -> In r (creported p a)) -> 
     covers p s a s2 (calls_of e)) as G.
  { intros s0 l s1 o1 s2 a S C Di D1 A1 A2 n H.
    assert (known s p = known s0 p) as E0 by (unfold known; destruct S as [-> _]; reflexivity). rewrite E0 in *.
    destruct (N.le_gt_cases n (seq0 (known s1 p))) as [L|L].
    - destruct (report_chain_cover _ _ _ p n C) as (r & R1 & R2); [lia|]. left. exists r. auto.
    - destruct (covers_did _ _ _ _ _ _ Di D1 N n) as [(r & R1 & R2)|(E1 & W)]; [lia|left; exists r; auto|].
      right. split; auto. destruct (known s0 p) eqn:Q; auto. exfalso. apply (chain_known _ _ _ p C); congruence. }
  inversion V as [o' s'' r Di _|s'' r buf e' _ _ S Er|s0 s1 r names buf e' B1 B2 S T Er|s0 s1 r names buf e' B1 B2 S T Er
    |s0 s1 s'' names buf l o' r B1 B2 S T Di _|s0 s1 s2 s'' names buf l av o1 o2 r B1 B2 S T D1 D2 _]; subst; try discriminate.
  - eapply covers_did; eauto.
  - apply (dinv_same _ _ _ S) in D. destruct (take_sync_inv names s0) as (_ & (m & M1 & M2) & C & _). rewrite T in *.
    cbn [st res fst snd] in *. specialize (C l eq_refl).
    eapply (G s0 l s1 o'); [exact S|exact C|exact Di| |rewrite creported_app, creported_upd; intros; apply in_or_app; auto..].
    subst s1. eapply dinv_chain; [exact D|apply M2, D|exact C].
  - apply (dinv_same _ _ _ S) in D. destruct (take_hello_inv names [] s0) as (_ & (m & M1 & M2) & C & _). rewrite T in *.
    cbn [st res fst snd] in *. destruct (C _ eq_refl) as [C1 _]. cbn [fst] in C1.
    eapply (G s0 l s1 (o1 ++ o2)); [exact S|exact C1|eapply did_then; eauto| |
      cbn [creported]; rewrite !creported_app, ?creported_upd; intros r; rewrite ?in_app_iff; tauto..].
    subst s1. eapply dinv_chain; [exact D|apply M2, D|exact C1].
Qed.

(** ** Good contents *)
Lemma good_split c : good_name c -> exists last v, name_get_minus c 1 = Ok last /\ to_number last = Ok v.
Proof. intros (p & v & -> & x & E). exists v, x. split; auto. apply name_get_minus_last. Qed.
Lemma take_sync_good names : Forall good_name names -> forall s, exists l, res (take_sync names s) = Ok l.
Proof.
  induction 1 as [|c names G _ IH]; intros s; cbn [take_sync]; [eexists; reflexivity|].
  destruct (good_split c G) as (last & v & E1 & E2). rewrite mbind_lift, E1, mbind_lift, E2. cbv zeta. rewrite mbind_get.
  destruct (match nm_find _ _ with None => true | Some cur => cur <? v end); [|apply IH].
  rewrite mbind_mod. set (s1 := cset_prefixes _ s). destruct (IH s1) as [l El]. unfold mbind. destruct (take_sync names s1) as [[s2 o2] r2].
  cbn [res snd] in El. subst r2. eexists; reflexivity.
Qed.
Lemma take_hello_good names : Forall good_name names -> forall av s, exists l, res (take_hello names av s) = Ok l.
Proof.
  induction 1 as [|c names G _ IH]; intros av s; cbn [take_hello]; [eexists; reflexivity|].
  destruct (good_split c G) as (last & v & E1 & E2). rewrite mbind_lift, E1, mbind_lift, E2. cbv zeta. rewrite mbind_get.
  destruct (is_subscribed _ _ && _); [|apply IH].
  rewrite mbind_mod. set (s1 := cset_prefixes _ s). destruct (IH (nm_emplace (name_prefix_back c 1) v av) s1) as [l El]. unfold mbind.
  destruct (take_hello names _ s1) as [[s2 o2] r2]. cbn [res snd] in El. subst r2. eexists; reflexivity.
Qed.
Lemma step_no_throw K e s : (forall buf, In buf (content_of e) -> cgood_content buf) -> forall x, res (c_step K e s) <> Throw x.
Proof.
  intros G x E. assert (fine (res (c_step K e s))) as F by (rewrite E; exact I).
  pose proof (c_step_view K e s F) as V. rewrite E in V.
  inversion V as [o' s'' r Di [y Y]|s'' r buf e' B1 B2 S Er|s0 s1 r names buf e' B1 B2 S T Er|s0 s1 r names buf e' B1 B2 S T Er
    |s0 s1 s'' names buf l o' r B1 B2 S T Di Er|s0 s1 s2 s'' names buf l av o1 o2 r B1 B2 S T D1 D2 Er]; subst; try discriminate.
  - destruct (G _ B1) as (names & N1 & _). congruence.
  - destruct (G _ B1) as (names' & N1 & N2). rewrite B2 in N1. injection N1 as <-. destruct (take_sync_good _ N2 s0) as [l L]. rewrite T in L. discriminate.
  - destruct (G _ B1) as (names' & N1 & N2). rewrite B2 in N1. injection N1 as <-. destruct (take_hello_good _ N2 [] s0) as [l L]. rewrite T in L. discriminate.
Qed.
(** ** No undefined behaviour *)
Section Safe.
Variables (K : ccfg) (b0 : bloom) (t : N).
Hypothesis Hnew : bloom_new (cc_libm K) (cc_count K) (cc_rate K) = Ok b0.
Hypothesis Hrate : cc_rate K = rate t.
Hypothesis Ht : 1 <= t <= 1000.
Hypothesis Hsize : b_size b0 <> 1.
Lemma insert_safe ops b n : bloom_run b0 ops = Ok b -> exists b', bloom_insert b n = Ok b'.
Proof. intros R. destruct (C17_monotone_and_clear _ _ _ _ _ n _ Hnew Hsize R) as [(b' & B & _) _]. eauto. Qed.
Lemma run_safe ops : exists b, bloom_run b0 ops = Ok b.
Proof.
  destruct (bloom_new_facts _ _ _ _ Hnew) as (_ & _ & _ & Hz & _ & [[E _]|Hs]); [contradiction|].
  destruct (bloom_run_ok ops b0 []) as (b & E & _); auto. eauto.
Qed.
Lemma append_safe s n : dinv b0 s -> exists n', append_bloom n (c_bloom s) = Ok n'.
Proof.
  intros D. destruct (di_bloom _ _ D) as (ops & R & _). rewrite Hrate in Hnew.
  destruct (C18_wire_total _ _ _ _ _ _ n Ht Hnew R) as [n' E]. eauto.
Qed.
Lemma call_safe a s : dinv b0 s -> c_iblt s <> [] ->
  exists s' o, call K a s = (s', o, Ok tt) /\ dinv b0 s' /\ c_iblt s' = c_iblt s.
Proof.
  intros D I.
  assert (forall s' o, call K a s = (s', o, Ok tt) -> dinv b0 s') as P.
  { intros s' o E. assert (fine (res (call K a s))) as F by (rewrite E; exact Logic.I). destruct (call_did K a s F) as [_ X].
    rewrite E in X. eapply dinv_did; eauto. }
  assert (exists s' o, call K a s = (s', o, Ok tt) /\ c_iblt s' = c_iblt s) as (s' & o & E & Q); [|exists s', o; split; [exact E|split; [eapply P; eauto|exact Q]]].
  clear P. destruct a as [p v cb|p| | |]; cbn [call].
  - pose proof (add_sub_cases K p v cb s) as C. unfold mbind. destruct (nm_find p (c_prefixes s)) as [x|].
    + rewrite C. eexists _, _. split; reflexivity.
    + destruct (di_bloom _ _ D) as (ops & R & _). destruct (insert_safe ops (c_bloom s) p R) as [b B]. rewrite B in C. rewrite C.
      eexists _, _. split; reflexivity.
  - pose proof (remove_sub_cases p s) as C. unfold mbind. destruct (nm_mem p (c_subs s)) eqn:E.
    + destruct (di_bloom _ _ D) as (ops & R & _).
      destruct (run_safe (ops ++ BClear :: map BIns (nm_keys (nm_erase p (c_subs s))))) as [b B].
      rewrite bloom_run_app, R in B. cbn [obind bloom_run] in B. rewrite <- insert_all_run in B. rewrite B in C. rewrite C.
      eexists _, _. split; reflexivity.
    + rewrite C. eexists _, _. split; reflexivity.
  - rewrite send_hello_eq. eexists _, _. split; [reflexivity|]. destruct (c_hello s); reflexivity.
  - rewrite send_sync_eq. destruct (append_safe s (sync_prefix K) D) as [n' ->]. destruct (c_iblt s) eqn:Q; [congruence|].
    eexists _, _. split; [reflexivity|]. destruct (c_sync s); exact Q.
  - eexists _, _. split; [reflexivity|]. destruct s as [? ? ? ? ? ? ? ? [h|] [y|] ? ? ? ?]; reflexivity.
Qed.
Lemma calls_safe l : forall s, dinv b0 s -> c_iblt s <> [] ->
  exists s' o, calls K l s = (s', o, Ok tt) /\ dinv b0 s' /\ c_iblt s' = c_iblt s.
Proof.
  induction l as [|a l IH]; intros s D I; cbn [calls].
  - eexists _, _. split; [reflexivity|auto].
  - destruct (call_safe a s D I) as (s1 & o1 & E1 & D1 & I1). rewrite (mbind_run _ _ _ _ _ _ E1).
    destruct (IH s1 D1) as (s2 & o2 & E2 & D2 & I2); [congruence|]. rewrite E2. eexists _, _. split; [reflexivity|]. split; [auto|congruence].
Qed.
Lemma send_safe s : dinv b0 s -> c_iblt s <> [] -> res (send_sync K s) = Ok tt.
Proof.
  intros D I. rewrite send_sync_eq. destruct (append_safe s (sync_prefix K) D) as [n' ->]. destruct (c_iblt s); [congruence|reflexivity].
Qed.
Lemma last_comp_ne n : n <> [] -> last_comp n <> [].
Proof.
  intros H E. unfold last_comp in E. apply (f_equal (@length _)) in E. rewrite skipn_length in E. cbn [length] in E.
  assert (length n <> 0%nat) by (destruct n; simpl; congruence). lia.
Qed.
Lemma content_safe i buf sc1 sc2 s : dinv b0 s -> cgood_content buf -> c_sname s <> [] -> c_hname s <> [] ->
  res (c_step K (CeContent i buf sc1 sc2) s) = Ok tt.
Proof.
  intros D (names & B1 & B2) Hs Hh. cbn [c_step]. rewrite mbind_get.
  destruct (cfetch i (c_live s)) as [[[] n]|]; [..|reflexivity]; unfold finish; rewrite mbind_mod; set (s1 := cset_live _ s).
  - unfold on_hello_data. rewrite mbind_mod, mbind_lift, B1. set (s2 := cset_iblt _ s1).
    assert (c_iblt s2 <> []) as I2 by (apply last_comp_ne; exact Hh).
    assert (dinv b0 s2) as D2 by (eapply dinv_same; [|exact D]; repeat split).
    destruct (take_hello_good names B2 [] s2) as [l L]. destruct (take_hello_inv names [] s2) as (T1 & (m & M1 & M2) & T3 & _).
    destruct (take_hello names [] s2) as [[s3 o3] r3] eqn:T. cbn [outs st res fst snd] in *. subst o3 r3.
    rewrite (mbind_run _ _ _ _ _ _ T), mbind_emit. destruct (T3 _ eq_refl) as [C _].
    assert (dinv b0 s3) as D3 by (subst s3; eapply dinv_chain; [exact D2|apply M2, D2|exact C]).
    destruct (calls_safe sc1 s3 D3) as (s4 & o4 & E4 & D4 & I4); [subst s3; exact I2|]. rewrite (mbind_run _ _ _ _ _ _ E4).
    destruct (fst l); [reflexivity|]. rewrite mbind_emit. destruct (calls_safe sc2 s4 D4) as (s5 & o5 & E5 & _); [rewrite I4; subst s3; exact I2|].
    rewrite E5. reflexivity.
  - destruct (is_nack (c_type s)); [reflexivity|]. unfold on_csync_data. rewrite mbind_mod, mbind_lift, B1. set (s2 := cset_iblt _ s1).
    assert (c_iblt s2 <> []) as I2 by (apply last_comp_ne; exact Hs).
    assert (dinv b0 s2) as D2 by (eapply dinv_same; [|exact D]; repeat split).
    destruct (take_sync_good names B2 s2) as [l L]. destruct (take_sync_inv names s2) as (T1 & (m & M1 & M2) & T3 & _).
    destruct (take_sync names s2) as [[s3 o3] r3] eqn:T. cbn [outs st res fst snd] in *. subst o3 r3.
    rewrite (mbind_run _ _ _ _ _ _ T). specialize (T3 _ eq_refl).
    assert (dinv b0 s3) as D3 by (subst s3; eapply dinv_chain; [exact D2|apply M2, D2|exact T3]).
    assert (c_iblt s3 <> []) as I3 by (subst s3; exact I2).
    destruct l as [|x l].
    + rewrite mbind_ret. pose proof (send_safe s3 D3 I3) as X. destruct (send_sync K s3) as [[a b] c]. exact X.
    + rewrite mbind_assoc, mbind_emit. destruct (calls_safe sc2 s3 D3 I3) as (s5 & o5 & E5 & D5 & I5). rewrite (mbind_run _ _ _ _ _ _ E5).
      pose proof (send_safe s5 D5) as X. destruct (send_sync K s5) as [[a b] c]. apply X. congruence.
Qed.
End Safe.

(** ** Everything in the content is taken *)
Lemma take_sync_all names : forall s l p x v, res (take_sync names s) = Ok l -> In (p ++ [x]) names -> to_number x = Ok v ->
  known (st (take_sync names s)) p <> None /\ v <= seq0 (known (st (take_sync names s)) p).
Proof.
  induction names as [|c names IH]; intros s l p x v; [intros _ []|]. cbn [take_sync].
  rewrite mbind_lift. destruct (name_get_minus c 1) as [last|e|u|] eqn:Eg; try discriminate.
  rewrite mbind_lift. destruct (to_number last) as [w|e|u|] eqn:Ev; try discriminate.
  cbv zeta. rewrite mbind_get. apply name_split in Eg. set (q := name_prefix_back c 1) in *.
  destruct (match nm_find q (c_prefixes s) with None => true | Some cur => cur <? w end) eqn:Hc.
  - rewrite mbind_mod. set (s1 := cset_prefixes (nm_set q w (c_prefixes s)) s).
    destruct (take_sync names s1) as [[s2 o2] r2] eqn:T. rewrite (mbind_run _ _ _ _ _ _ T).
    destruct (take_sync_inv names s1) as (_ & _ & _ & l2 & C & _). rewrite T in C.
    destruct r2 as [l3|e|u|]; try discriminate. intros _. cbn [mret st res outs fst snd] in *.
    intros [E|Hin] Hx.
    + rewrite Eg in E. apply app_inj_tail in E as [<- <-]. rewrite Ev in Hx. injection Hx as <-.
      assert (known s1 q = Some w) as Q by (unfold s1; rewrite known_set, name_eqb_refl; reflexivity). split.
      * apply (chain_known _ _ _ _ C). rewrite Q. discriminate.
      * pose proof (report_chain_mono _ _ _ q C) as M. rewrite Q in M. exact M.
    + pose proof (IH s1 l3 p x v) as G. rewrite T in G. apply G; auto.
  - intros E. intros [Ec|Hin] Hx; [|eapply IH; eauto].
    rewrite Eg in Ec. apply app_inj_tail in Ec as [<- <-]. rewrite Ev in Hx. injection Hx as <-.
    destruct (take_sync_inv names s) as (_ & _ & _ & l2 & C & _).
    assert (exists y, known s q = Some y /\ w <= y) as (y & Y & W).
    { unfold known. destruct (nm_find q (c_prefixes s)) as [y|]; [|discriminate]. exists y. split; auto. apply N.ltb_ge. exact Hc. }
    split; [apply (chain_known _ _ _ _ C); rewrite Y; discriminate|].
    pose proof (report_chain_mono _ _ _ q C) as M. rewrite Y in M. simpl in M. lia.
Qed.

(** ** Fetchers that are gone stay gone *)
Definition gone (s s' : cs) : Prop :=
  (c_started s <= c_started s')%nat /\ forall i x, In (i, x) (c_live s') -> In (i, x) (c_live s) \/ (c_started s <= i)%nat.
Lemma gone_refl s : gone s s. Proof. split; auto. Qed.
Lemma gone_trans a b c : gone a b -> gone b c -> gone a c.
Proof. intros [A1 A2] [B1 B2]. split; [lia|]. intros i x H. destruct (B2 i x H) as [H1|H1]; auto. right. lia. Qed.
Lemma gone_same s s' : c_started s' = c_started s -> c_live s' = c_live s -> gone s s'.
Proof. intros A B. split; rewrite ?A, ?B; auto. Qed.
Lemma gone_stop p s : gone s (cstop p s).
Proof. destruct p; [|apply gone_refl]. split; auto. intros j x H. left. simpl in H. apply without_In in H. apply H. Qed.
Lemma gone_start k n s : gone s (cstart k n s).
Proof. destruct k; (split; simpl; [lia|]); intros i x [[= <- <-]|H]; auto. Qed.
Lemma gone_take_sync names s : gone s (st (take_sync names s)).
Proof. destruct (take_sync_inv names s) as (_ & (m & -> & _) & _). apply gone_same; reflexivity. Qed.
Lemma gone_take_hello names av s : gone s (st (take_hello names av s)).
Proof. destruct (take_hello_inv names av s) as (_ & (m & -> & _) & _). apply gone_same; reflexivity. Qed.
Lemma gone_get {B} (f : cs -> CM B) : (forall s, keeps gone (f s)) -> keeps gone (mbind mget f).
Proof. intros H s. rewrite mbind_get. apply H. Qed.
Lemma gone_bind {A B} (m : CM A) (f : A -> CM B) : keeps gone m -> (forall a, keeps gone (f a)) -> keeps gone (mbind m f).
Proof. apply keeps_bind. exact gone_trans. Qed.
Lemma gone_ret {A} (a : A) : keeps gone (mret a : CM A). Proof. intros s. apply gone_refl. Qed.
Lemma gone_lift {A} (a : outcome A) : keeps gone (mlift a : CM A). Proof. intros s. apply gone_refl. Qed.
Lemma gone_emit o : keeps gone (memit o : CM unit). Proof. intros s. apply gone_refl. Qed.
Ltac gmod := intros ?; apply gone_same; reflexivity.
Lemma gone_send_hello K : keeps gone (send_hello K).
Proof. intros s. rewrite send_hello_eq. eapply gone_trans; [apply gone_stop|apply gone_start]. Qed.
Lemma gone_send_sync K : keeps gone (send_sync K).
Proof.
  intros s. rewrite send_sync_eq. destruct (c_iblt s); [apply gone_refl|]. destruct (append_bloom _ _); try apply gone_refl.
  eapply gone_trans; [apply gone_stop|apply gone_start].
Qed.
Lemma gone_call K a : keeps gone (call K a).
Proof.
  destruct a as [p v cb|p| | |]; cbn [call].
  - apply gone_bind; [|intros; apply gone_emit]. unfold add_sub. apply gone_get. intros s0. destruct (nm_find _ _); [apply gone_ret|].
    apply gone_bind; [gmod|intros _]. apply gone_bind; [apply gone_lift|intros b]. apply gone_bind; [gmod|intros _].
    apply gone_bind; [destruct (_ && _); [apply gone_emit|apply gone_ret]|intros; apply gone_ret].
  - apply gone_bind; [|intros; apply gone_emit]. unfold remove_sub. apply gone_get. intros s0. destruct (is_subscribed _ _); [|apply gone_ret].
    apply gone_bind; [gmod|intros _]. apply gone_bind; [apply gone_lift|intros b]. apply gone_bind; [gmod|intros; apply gone_ret].
  - apply gone_send_hello.
  - apply gone_send_sync.
  - intros s. unfold stop_all, mmod, st. cbn [fst snd]. eapply gone_trans; [apply (gone_same s (cset_timers [] s)); reflexivity|].
    set (s1 := cset_timers [] s). set (s2 := cstop (c_sync s1) s1). set (s3 := cset_sync None s2). set (s4 := cstop (c_hello s3) s3).
    apply gone_trans with s2; [apply gone_stop|]. apply gone_trans with s3; [apply gone_same; reflexivity|].
    apply gone_trans with s4; [apply gone_stop|apply gone_same; reflexivity].
Qed.
Lemma gone_calls K l : keeps gone (calls K l).
Proof. induction l as [|a l IH]; cbn [calls]; [apply gone_ret|]. apply gone_bind; [apply gone_call|intros _; exact IH]. Qed.
Lemma gone_finish i : keeps gone (finish i).
Proof. intros s. apply (gone_stop (Some i) s). Qed.
Lemma gone_hello_data K buf sc1 sc2 : keeps gone (on_hello_data K buf sc1 sc2).
Proof.
  unfold on_hello_data. apply gone_bind; [gmod|intros _]. apply gone_bind; [apply gone_lift|intros names].
  apply gone_bind; [intros x; apply gone_take_hello|intros x]. apply gone_bind; [apply gone_emit|intros _]. apply gone_bind; [apply gone_calls|intros _].
  destruct (fst x); [apply gone_ret|]. apply gone_bind; [apply gone_emit|intros _]. apply gone_calls.
Qed.
Lemma gone_sync_data K buf sc : keeps gone (on_csync_data K buf sc).
Proof.
  unfold on_csync_data. apply gone_bind; [gmod|intros _].
  apply gone_bind; [apply gone_lift|intros names]. apply gone_bind; [intros x; apply gone_take_sync|intros l]. apply gone_bind; [|intros _; apply gone_send_sync].
  destruct l; [apply gone_ret|]. apply gone_bind; [apply gone_emit|intros _]. apply gone_calls.
Qed.
Lemma gone_step K e : keeps gone (c_step K e).
Proof.
  destruct e as [a|i d|i buf sc1 sc2|i to|dt|i]; cbn [c_step].
  - apply gone_call.
  - apply gone_get. intros s. destruct (cfetch i (c_live s)) as [[[] n]|]; [..|apply gone_ret].
    + destruct (d_final d); [gmod|apply gone_ret].
    + apply gone_bind; [destruct (d_final d); [gmod|apply gone_ret]|intros _]. apply gone_get. intros s1.
      destruct (is_nack _); [apply gone_send_hello|apply gone_ret].
  - apply gone_get. intros s. destruct (cfetch i (c_live s)) as [[[] n]|]; [..|apply gone_ret].
    + apply gone_bind; [apply gone_finish|intros _]. apply gone_hello_data.
    + apply gone_bind; [apply gone_finish|intros _]. destruct (is_nack _); [gmod|]. apply gone_sync_data.
  - apply gone_get. intros s. destruct (cfetch i (c_live s)) as [[[] n]|]; [..|apply gone_ret].
    + apply gone_bind; [apply gone_finish|intros _; gmod].
    + apply gone_bind; [apply gone_finish|intros _]. destruct to; [apply gone_send_sync|gmod].
  - gmod.
  - apply gone_get. intros s. destruct (nth_error _ _) as [[dl k]|]; [|apply gone_ret]. destruct (dl <=? _); [|apply gone_ret].
    apply gone_bind; [gmod|intros _]. destruct k; [apply gone_send_hello|apply gone_send_sync].
Qed.
Lemma gone_run K evs : forall s s' o, c_run K s evs = Some (s', o) -> gone s s'.
Proof. intros s s' o. unfold c_run. apply (run_rel (c_step K) gone gone_refl gone_trans). intros e. apply gone_step. Qed.

(** ** Quiet consumers *)
Lemma cfetch_In i l x : cfetch i l = Some x -> In (i, x) l.
Proof.
  induction l as [|[j y] l IH]; simpl; [discriminate|]. destruct (Nat.eqb_spec i j) as [->|E]; [intros [= ->]; auto|]. auto.
Qed.
Lemma cfetch_None i l : cfetch i l = None <-> forall x, ~ In (i, x) l.
Proof.
  induction l as [|[j y] l IH]; simpl; [firstorder|]. destruct (Nat.eqb_spec i j) as [->|E].
  - split; [discriminate|]. intros H. destruct (H y). auto.
  - rewrite IH. split; intros H x; [intros [[= -> _]|G]; [congruence|eapply H; eauto]|]. intros G. eapply H. right. exact G.
Qed.
Lemma quiet_step K e s : quiet s -> external e -> exists s', c_step K e s = (s', [], Ok tt) /\ quiet s'.
Proof.
  intros [L T] X. assert (forall i, cfetch i (c_live s) = None) as C by (rewrite L; reflexivity).
  destruct e as [a|i d|i buf sc1 sc2|i to|dt|i]; [destruct (X a); reflexivity|cbn [c_step]; rewrite ?mbind_get, ?C..].
  - exists s. repeat split; auto.
  - exists s. repeat split; auto.
  - exists s. repeat split; auto.
  - eexists. split; [reflexivity|]. split; auto.
  - rewrite T. replace (nth_error [] i) with (@None (N * kind)) by (destruct i; reflexivity). exists s. repeat split; auto.
Qed.
Lemma stop_quiet s : linv s -> quiet (st (stop_all s)).
Proof.
  intros L. split.
  - pose proof (linv_stop_all s L) as L'. destruct (c_live (st (stop_all s))) as [|[i [[] n]] r] eqn:E; auto; exfalso.
    + pose proof (li_hello _ L' i n) as H. rewrite E in H. specialize (H (or_introl eq_refl)). discriminate.
    + pose proof (li_sync _ L' i n) as H. rewrite E in H. specialize (H (or_introl eq_refl)).
      unfold stop_all, mmod, st in H. cbn [fst snd] in H. set (s1 := cset_timers [] s) in *. cbn in H. destruct (c_hello (cstop (c_sync s) s1)); discriminate.
  - unfold stop_all, mmod, st. cbn [fst snd]. destruct s as [? ? ? ? ? ? ? ? [h|] [y|] ? ? ? ?]; reflexivity.
Qed.

(** ** Later states *)
Lemma creaches_split K evs1 evs2 s o : creaches K (evs1 ++ evs2) s o ->
  exists s1 o1 o2, creaches K evs1 s1 o1 /\ c_run K s1 evs2 = Some (s, o2) /\ o = o1 ++ o2.
Proof.
  unfold creaches, c_start. destruct (c_new K); try discriminate. unfold c_run. rewrite run_app.
  destruct (run (c_step K) a evs1) as [[s1 o1]|]; [|discriminate]. destruct (run (c_step K) s1 evs2) as [[s2 o2]|] eqn:E; [|discriminate].
  intros [= <- <-]. eauto 6.
Qed.
Lemma creaches_join K evs1 evs2 s1 o1 s o2 : creaches K evs1 s1 o1 -> c_run K s1 evs2 = Some (s, o2) ->
  creaches K (evs1 ++ evs2) s (o1 ++ o2).
Proof.
  unfold creaches, c_start. destruct (c_new K); try discriminate. unfold c_run. rewrite run_app. intros -> ->. reflexivity.
Qed.
Lemma later_tells K evs1 s1 o1 p : creaches K evs1 s1 o1 -> forall evs2 s2 o2, c_run K s1 evs2 = Some (s2, o2) ->
  (forall e, In e evs2 -> ~ In (CUnsub p) (calls_of e)) -> tells p s1 o2 s2.
Proof.
  intros R1. induction evs2 as [|e evs2 IH] using rev_ind; intros s2 o2 R2 N.
  - injection R2 as <- <-. apply tells_nothing; auto. lia.
  - unfold c_run in R2. apply run_snoc in R2 as (s3 & o3 & o4 & R3 & Es & Eo & -> & Er).
    eapply tells_trans; [apply (IH s3 o3 R3)|].
    + intros x Hx. apply N, in_or_app. auto.
    + pose proof (creaches_join _ _ _ _ _ _ _ R1 R3) as R4. destruct (creaches_inv _ _ _ _ R4) as (b0 & _ & D & _).
      rewrite <- Es, <- Eo. eapply step_tells; eauto.
      * destruct Er as [[x ->]|[x ->]]; exact I.
      * apply N, in_or_app. right. left. reflexivity.
Qed.

(** ** What sync interests carry *)
Section Carry.
Variables (K : ccfg) (B : bloom).
Definition cI (s : cs) : Prop := c_bloom s = B.
Definition cP (x : cout) : Prop := forall n, x = CoInterest KSync n ->
  exists n1 rest, append_bloom (sync_prefix K) B = Ok n1 /\ n = n1 ++ rest /\ rest <> [].
Lemma carry_send_hello : hoare cI cP (send_hello K).
Proof.
  intros s H. rewrite send_hello_eq. cbn [st outs fst snd]. split; [|constructor; [discriminate|constructor]].
  unfold cI in *. destruct (c_hello s); exact H.
Qed.
Lemma carry_send_sync : hoare cI cP (send_sync K).
Proof.
  intros s H. rewrite send_sync_eq. destruct (c_iblt s) as [|c r] eqn:E; [split; [exact H|constructor]|].
  unfold cI in H. rewrite H. destruct (append_bloom (sync_prefix K) B) as [n1|e|u|] eqn:A; try (split; [exact H|constructor]).
  cbn [st outs fst snd]. split; [unfold cI in *; destruct (c_sync s); exact H|]. constructor; [|constructor].
  intros n [= <-]. exists n1, (c :: r). split; auto. split; auto. discriminate.
Qed.
Lemma carry_calls l : Forall keeps_list l -> hoare cI cP (calls K l).
Proof.
  induction 1 as [|a l Ha _ IH]; cbn [calls]; [apply hoare_ret|]. apply hoare_bind; [|intros _; exact IH].
  destruct a; try destruct Ha; cbn [call]; [apply carry_send_hello|apply carry_send_sync|].
  intros s H. cbn [st outs fst snd]. split; [|constructor]. unfold cI in *. destruct s as [? ? ? ? ? ? ? ? [h|] [y|] ? ? ? ?]; exact H.
Qed.
Lemma carry_step e : Forall keeps_list (calls_of e) -> hoare cI cP (c_step K e).
Proof.
  intros Hl. assert (forall f, (forall s, c_bloom (f s) = c_bloom s) -> hoare cI cP (mmod f)) as Hm.
  { intros f Hf. apply hoare_mod. intros s. unfold cI. rewrite Hf. auto. }
  assert (forall B (f : cs -> CM B), (forall s, hoare cI cP (f s)) -> hoare cI cP (mbind mget f)) as Hg.
  { intros B' f Hf s H. rewrite mbind_get. apply Hf. exact H. }
  assert (forall x, (forall n, x <> CoInterest KSync n) -> hoare cI cP (memit [x])) as He.
  { intros x Hx. apply hoare_emit. constructor; [|constructor]. intros n E. destruct (Hx n E). }
  destruct e as [a|i d|i buf sc1 sc2|i to|dt|i]; cbn [c_step].
  - pose proof (carry_calls [a] Hl) as H. intros s Hs. specialize (H s Hs). cbn [calls] in H. unfold mbind, mret in H.
    destruct (call K a s) as [[s1 o1] [x|x|x|]]; cbn [st outs fst snd] in *; rewrite ?app_nil_r in H; exact H.
  - apply Hg. intros s. destruct (cfetch i (c_live s)) as [[[] n]|]; [..|apply hoare_ret].
    + destruct (d_final d); [apply Hm; reflexivity|apply hoare_ret].
    + apply hoare_bind; [destruct (d_final d); [apply Hm; reflexivity|apply hoare_ret]|intros _]. apply Hg. intros s1.
      destruct (is_nack _); [apply carry_send_hello|apply hoare_ret].
  - apply Forall_app in Hl as [Hl1 Hl2].
    apply Hg. intros s. destruct (cfetch i (c_live s)) as [[[] n]|]; [..|apply hoare_ret].
    + apply hoare_bind; [apply Hm; reflexivity|intros _]. unfold on_hello_data. apply hoare_bind; [apply Hm; reflexivity|intros _].
      apply hoare_bind; [apply hoare_lift|intros names]. apply hoare_bind.
      * intros x Hx. destruct (take_hello_inv names [] x) as (-> & (m & -> & _) & _). split; [exact Hx|constructor].
      * intros x. apply hoare_bind; [apply He; discriminate|intros _]. apply hoare_bind; [apply carry_calls; auto|intros _].
        destruct (fst x); [apply hoare_ret|]. apply hoare_bind; [apply He; discriminate|intros _]. apply carry_calls; auto.
    + apply hoare_bind; [apply Hm; reflexivity|intros _]. destruct (is_nack _); [apply Hm; reflexivity|].
      unfold on_csync_data. apply hoare_bind; [apply Hm; reflexivity|intros _]. apply hoare_bind; [apply hoare_lift|intros names]. apply hoare_bind.
      * intros x Hx. destruct (take_sync_inv names x) as (-> & (m & -> & _) & _). split; [exact Hx|constructor].
      * intros l. apply hoare_bind; [|intros _; apply carry_send_sync]. destruct l; [apply hoare_ret|].
        apply hoare_bind; [apply He; discriminate|intros _]. apply carry_calls; auto.
  - apply Hg. intros s. destruct (cfetch i (c_live s)) as [[[] n]|]; [..|apply hoare_ret].
    + apply hoare_bind; [apply Hm; reflexivity|intros _; apply Hm; reflexivity].
    + apply hoare_bind; [apply Hm; reflexivity|intros _]. destruct to; [apply carry_send_sync|apply Hm; reflexivity].
  - apply Hm; reflexivity.
  - apply Hg. intros s. destruct (nth_error _ _) as [[dl k]|]; [|apply hoare_ret]. destruct (dl <=? _); [|apply hoare_ret].
    apply hoare_bind; [apply Hm; reflexivity|intros _]. destruct k; [apply carry_send_hello|apply carry_send_sync].
Qed.
End Carry.

(** ** A new interest supersedes the one before it *)
Section Supersede.
Variables (K : ccfg) (i : nat) (k : kind).
Definition dead (s : cs) : Prop := forall m, ~ In (i, (k, m)) (c_live s).
Record comp_ok {A} (m : CM A) : Prop := mkComp {
  ck_pres : pres linv m; ck_gone : keeps gone m;
  ck_dead : forall s, linv s -> fine (res (m s)) -> (i < c_started s)%nat -> (exists n, In (CoInterest k n) (outs (m s))) -> dead (st (m s)) }.
Lemma dead_gone s s' : gone s s' -> (i < c_started s)%nat -> dead s -> dead s'.
Proof. intros [G1 G2] L D m H. destruct (G2 _ _ H) as [H1|H1]; [eapply D; eauto|lia]. Qed.
Lemma ck_bind {A B} (m : CM A) (f : A -> CM B) : comp_ok m -> (forall a, comp_ok (f a)) -> comp_ok (mbind m f).
Proof.
  intros [P1 G1 D1] H. split.
  - apply pres_bind; [exact P1|]. intros a. apply H.
  - apply gone_bind; [exact G1|]. intros a. apply H.
  - intros s L F Hi Hn. specialize (P1 s L). specialize (G1 s). specialize (D1 s L).
    destruct (m s) as [[s1 o1] r1] eqn:E. rewrite (mbind_run _ _ _ _ _ _ E) in *. cbn [st outs res fst snd] in *.
    destruct r1 as [a|x|x|]; cbn [st outs res fst snd] in *; auto.
    destruct (H a) as [_ G2 D2]. specialize (G2 s1). specialize (D2 s1). destruct (f a s1) as [[s2 o2] r2]. cbn [st outs res fst snd] in *.
    assert (i < c_started s1)%nat as Hi1 by (destruct G1; lia). destruct Hn as [n Hn]. apply in_app_or in Hn as [Hn|Hn].
    + eapply dead_gone; eauto. apply D1; [exact I|exact Hi|eauto].
    + apply D2; eauto. apply P1. exact I.
Qed.
Lemma ck_silent {A} (m : CM A) : pres linv m -> keeps gone m -> (forall s n, ~ In (CoInterest k n) (outs (m s))) -> comp_ok m.
Proof. intros P G S. split; auto. intros s _ _ _ [n Hn]. destruct (S s n Hn). Qed.
Lemma ck_ret {A} (a : A) : comp_ok (mret a).
Proof. apply ck_silent; [apply pres_ret|apply gone_ret|intros s n []]. Qed.
Lemma ck_lift {A} (a : outcome A) : comp_ok (mlift a).
Proof. apply ck_silent; [apply pres_lift|apply gone_lift|intros s n []]. Qed.
Lemma ck_emit o : (forall n, ~ In (CoInterest k n) o) -> comp_ok (memit o).
Proof. intros H. apply ck_silent; [apply pres_emit|apply gone_emit|intros s; exact H]. Qed.
Lemma ck_get {B} (f : cs -> CM B) : (forall s, comp_ok (f s)) -> comp_ok (mbind mget f).
Proof.
  intros H. split.
  - apply pres_get'. intros s. apply H.
  - apply gone_get. intros s. apply H.
  - intros s. rewrite mbind_get. apply H.
Qed.
Lemma ck_mod f : (forall s, c_live (f s) = c_live s /\ c_hello (f s) = c_hello s /\ c_sync (f s) = c_sync s /\ c_started (f s) = c_started s) ->
  comp_ok (mmod f).
Proof.
  intros H. apply ck_silent; [apply linv_neutral; exact H| |intros s n []].
  intros s. destruct (H s) as (A & _ & _ & D). apply gone_same; auto.
Qed.
Lemma ck_send_hello : comp_ok (send_hello K).
Proof.
  split; [apply linv_send_hello|apply gone_send_hello|]. intros s L F Hi [n Hn] m Hm.
  pose proof (linv_send_hello K s L F) as L'. rewrite send_hello_eq in *. cbn [st outs res fst snd] in *.
  destruct Hn as [[= <- <-]|[]]. pose proof (li_hello _ L' _ _ Hm) as X. cbn [cstart c_hello cset_hello] in X. injection X as X.
  destruct (c_hello s); cbn in X; lia.
Qed.
Lemma ck_send_sync : comp_ok (send_sync K).
Proof.
  split; [apply linv_send_sync|apply gone_send_sync|]. intros s L F Hi [n Hn] m Hm.
  pose proof (linv_send_sync K s L F) as L'. rewrite send_sync_eq in *. destruct (c_iblt s); [destruct Hn|].
  destruct (append_bloom _ _); try solve [destruct Hn]. cbn [st outs res fst snd] in *.
  destruct Hn as [[= <- _]|[]]. pose proof (li_sync _ L' _ _ Hm) as X. cbn [cstart c_sync cset_sync] in X. injection X as X.
  destruct (c_sync s); cbn in X; lia.
Qed.
Ltac ckm := apply ck_mod; intros; repeat split.
Lemma ck_call a : comp_ok (call K a).
Proof.
  destruct a as [p v cb|p| | |]; cbn [call].
  - apply ck_bind; [|intros; apply ck_emit; intros n [[=]|[]]]. unfold add_sub. apply ck_get. intros s0. destruct (nm_find _ _); [apply ck_ret|].
    apply ck_bind; [ckm|intros _]. apply ck_bind; [apply ck_lift|intros b]. apply ck_bind; [ckm|intros _].
    apply ck_bind; [destruct (_ && _); [apply ck_emit; intros n [[=]|[]]|apply ck_ret]|intros; apply ck_ret].
  - apply ck_bind; [|intros; apply ck_emit; intros n [[=]|[]]]. unfold remove_sub. apply ck_get. intros s0. destruct (is_subscribed _ _); [|apply ck_ret].
    apply ck_bind; [ckm|intros _]. apply ck_bind; [apply ck_lift|intros b]. apply ck_bind; [ckm|intros; apply ck_ret].
  - apply ck_send_hello.
  - apply ck_send_sync.
  - apply ck_silent; [apply (linv_call K CStop)|apply (gone_call K CStop)|intros s n []].
Qed.
Lemma ck_calls l : comp_ok (calls K l).
Proof. induction l as [|a l IH]; cbn [calls]; [apply ck_ret|]. apply ck_bind; [apply ck_call|intros _; exact IH]. Qed.
Lemma ck_finish j : comp_ok (finish j).
Proof. apply ck_silent; [apply linv_finish'|apply gone_finish|intros s n []]. Qed.
Lemma ck_step e : comp_ok (c_step K e).
Proof.
  destruct e as [a|j d|j buf sc1 sc2|j to|dt|j]; cbn [c_step].
  - apply ck_call.
  - apply ck_get. intros s. destruct (cfetch j (c_live s)) as [[[] n]|]; [..|apply ck_ret].
    + destruct (d_final d); [ckm|apply ck_ret].
    + apply ck_bind; [destruct (d_final d); [ckm|apply ck_ret]|intros _]. apply ck_get. intros s1.
      destruct (is_nack _); [apply ck_send_hello|apply ck_ret].
  - apply ck_get. intros s. destruct (cfetch j (c_live s)) as [[[] n]|]; [..|apply ck_ret].
    + apply ck_bind; [apply ck_finish|intros _]. unfold on_hello_data. apply ck_bind; [ckm|intros _]. apply ck_bind; [apply ck_lift|intros names].
      apply ck_bind; [|intros x].
      { apply ck_silent; [apply linv_take_hello|intros x; apply gone_take_hello|]. intros s1 m. destruct (take_hello_inv names [] s1) as (-> & _). auto. }
      apply ck_bind; [apply ck_emit; intros m [[=]|[]]|intros _]. apply ck_bind; [apply ck_calls|intros _].
      destruct (fst x); [apply ck_ret|]. apply ck_bind; [apply ck_emit; intros m0 [[=]|[]]|intros _]. apply ck_calls.
    + apply ck_bind; [apply ck_finish|intros _]. destruct (is_nack _); [ckm|]. unfold on_csync_data. apply ck_bind; [ckm|intros _].
      apply ck_bind; [apply ck_lift|intros names]. apply ck_bind; [|intros l].
      { apply ck_silent; [apply linv_take_sync|intros x; apply gone_take_sync|]. intros s1 m. destruct (take_sync_inv names s1) as (-> & _). auto. }
      apply ck_bind; [|intros _; apply ck_send_sync].
      destruct l; [apply ck_ret|]. apply ck_bind; [apply ck_emit; intros m0 [[=]|[]]|intros _]. apply ck_calls.
  - apply ck_get. intros s. destruct (cfetch j (c_live s)) as [[[] n]|]; [..|apply ck_ret].
    + apply ck_bind; [apply ck_finish|intros _; ckm].
    + apply ck_bind; [apply ck_finish|intros _]. destruct to; [apply ck_send_sync|ckm].
  - ckm.
  - apply ck_get. intros s. destruct (nth_error _ _) as [[dl x]|]; [|apply ck_ret]. destruct (dl <=? _); [|apply ck_ret].
    apply ck_bind; [ckm|intros _]. destruct x; [apply ck_send_hello|apply ck_send_sync].
Qed.
End Supersede.
Lemma gone_fetch K s i : cfetch i (c_live s) = None ->
  (forall d, c_step K (CeSegment i d) s = (s, [], Ok tt)) /\
  (forall buf sc1 sc2, c_step K (CeContent i buf sc1 sc2) s = (s, [], Ok tt)) /\
  (forall b, c_step K (CeError i b) s = (s, [], Ok tt)).
Proof. intros H. repeat split; intros; cbn [c_step]; rewrite mbind_get, H; reflexivity. Qed.
Lemma quiet_run K evs : forall s s' o, quiet s -> Forall external evs -> c_run K s evs = Some (s', o) -> o = [] /\ quiet s'.
Proof.
  induction evs as [|e evs IH]; intros s s' o Q F R.
  - injection R as <- <-. auto.
  - inversion F; subst. unfold c_run in R. cbn [run] in R. destruct (quiet_step K e s Q H1) as (s1 & E & Q1). rewrite E in R.
    destruct (run (c_step K) s1 evs) as [[s2 o2]|] eqn:R2; [|discriminate]. injection R as <- <-. destruct (IH s1 s2 o2 Q1 H2 R2) as [-> Q2]. auto.
Qed.
