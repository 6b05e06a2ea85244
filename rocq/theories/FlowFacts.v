(** Counting the packets a partial producer sends. *)
From Coq Require Import List NArith ZArith Bool Arith Lia Sorted.
From Verif Require Import Base Mon MonFacts Iblt Tlv State NMap TlvFacts NMapFacts Codec Bloom Store StoreFacts Producer Partial.
Import ListNotations.
Local Open Scope nat_scope.

(** ** Sizes of maps *)
Section Sizes.
Context {V : Type}.
Implicit Types m : nmap V.
Lemma nm_set_length_le k (v : V) m : length (nm_set k v m) <= S (length m).
Proof.
  induction m as [|[k' v'] m IH]; simpl; auto. destruct (name_cmp k k'); simpl; lia.
Qed.
Lemma nm_set_length_found k (v : V) m : nm_sorted m -> nm_find k m <> None -> length (nm_set k v m) = length m.
Proof.
  induction m as [|[k' v'] m IH]; intros Hs Hf; [destruct Hf; reflexivity|].
  simpl in *. destruct (name_cmp k k') eqn:C; simpl; auto.
  - exfalso. destruct (name_eqb k k') eqn:Q; [apply name_eqb_eq in Q; subst; rewrite name_cmp_refl in C; discriminate|].
    destruct (nm_find k m) as [x|] eqn:F; [|congruence]. apply nm_find_In in F.
    inversion Hs as [|a b Hs' Hall]; subst.
    assert (name_lt k' k) as L.
    { rewrite Forall_forall in Hall. apply (in_map fst) in F. apply Hall in F. exact F. }
    unfold name_lt in L. rewrite (name_cmp_antisym k k'), C in L. discriminate.
  - destruct (name_eqb k k') eqn:Q; [apply name_eqb_eq in Q; subst; rewrite name_cmp_refl in C; discriminate|].
    f_equal. apply IH; auto. inversion Hs; auto.
Qed.
Lemma nm_erase_length_le k m : length (nm_erase k m) <= length m.
Proof. induction m as [|[k' v'] m IH]; simpl; auto. destruct (name_eqb k k'); simpl; lia. Qed.
Lemma nm_erase_length_found k m : nm_find k m <> None -> S (length (nm_erase k m)) = length m.
Proof.
  induction m as [|[k' v'] m IH]; simpl; intros H; [congruence|]. destruct (name_eqb k k'); simpl; auto.
Qed.
End Sizes.

(** ** Handlers of the partial producer *)
(** [c] is how many packets the handler may send beyond the pending interests it uses up *)
Definition pbal {A} (c : nat) (s : pp) (m : PM A) : Prop :=
  nm_sorted (pp_pending s) ->
  nm_sorted (pp_pending (st (m s))) /\ length (outs (m s)) + length (pp_pending (st (m s))) <= length (pp_pending s) + c.
Lemma pbal_bind {A B} a b s (m : PM A) (f : A -> PM B) : pbal a s m -> (forall x s1, pbal b s1 (f x)) -> pbal (a + b) s (mbind m f).
Proof.
  intros Hm Hf Hs. destruct (Hm Hs) as [S1 L1]. unfold mbind, st, outs in *. destruct (m s) as [[s1 o1] [x|e|u|]]; cbn [fst snd] in *; try (split; [auto|lia]).
  destruct (Hf x s1 S1) as [S2 L2]. unfold st, outs in *. destruct (f x s1) as [[s2 o2] r2]. cbn [fst snd] in *. rewrite app_length. split; [auto|lia].
Qed.
Lemma pbal_lift {A B} b s r (f : A -> PM B) : (forall x, pbal b s (f x)) -> pbal b s (mbind (mlift r) f).
Proof. intros H. unfold pbal. rewrite mbind_lift. destruct r; try apply H; cbn; intros; split; auto; lia. Qed.
Lemma pbal_get {B} b s (f : pp -> PM B) : pbal b s (f s) -> pbal b s (mbind mget f).
Proof. intros H. unfold pbal. rewrite mbind_get. apply H. Qed.
Lemma pbal_ret b s : pbal b s (mret tt).
Proof. intros Hs. cbn. split; [auto|lia]. Qed.
Lemma put_segment_one iname ds l : put_segment iname ds = Ok l -> length l <= 1.
Proof.
  unfold put_segment. destruct (name_get_back iname 1) as [last|e|u|]; cbn [obind]; try discriminate.
  destruct (if is_segment last then to_segment last else Ok 0%N) as [k|e|u|]; cbn [obind]; try discriminate.
  destruct (N.ltb k _); [|intros [= <-]; auto]. destruct (nth_error _ _); intros [= <-]; auto.
Qed.
Lemma publish_one E now i d b f p q l : publish E now i d b f p = (q, Ok l) -> length l <= 1.
Proof. unfold publish. intros [= _ H]. eapply put_segment_one; eauto. Qed.
Lemma pp_publish_pending K i d b f s : pp_pending (st (pp_publish K i d b f s)) = pp_pending s.
Proof. unfold pp_publish. destruct (publish _ _ _ _ _ _ _) as [q [l|e|u|]]; reflexivity. Qed.
Lemma pp_publish_outs K i d b f s : length (outs (pp_publish K i d b f s)) <= 1.
Proof.
  unfold pp_publish. destruct (publish _ _ _ _ _ _ _) as [q [l|e|u|]] eqn:P; cbn; auto. eapply publish_one; eauto.
Qed.
Lemma pbal_publish K i d b f s : pbal 1 s (pp_publish K i d b f).
Proof. intros Hs. rewrite pp_publish_pending. pose proof (pp_publish_outs K i d b f s). split; [auto|lia]. Qed.
Lemma pbal_hello K p n s : pbal 1 s (on_hello_interest K p n).
Proof.
  unfold on_hello_interest. apply pbal_get. destruct (reply_from_store _ _); [intros Hs; cbn; split; [auto|lia]|].
  apply pbal_lift. intros [|]; [|apply pbal_ret]. apply pbal_lift. intros dn. apply pbal_publish.
Qed.
Lemma pbal_sync K p n l s : pbal 1 s (on_sync_interest K p n l).
Proof.
  unfold on_sync_interest. apply pbal_get. destruct (reply_from_store _ _); [intros Hs; cbn; split; [auto|lia]|].
  destruct (sync_request p n) as [r|]; [|apply pbal_ret]. apply pbal_lift. intros [[bf t]|]; [|apply pbal_ret].
  apply pbal_lift. intros d. destruct (negb _).
  { unfold pp_send_nack. apply pbal_get, pbal_lift. intros dn. intros Hs. rewrite mbind_mod. cbn. split; [auto|lia]. }
  apply pbal_lift. intros content. destruct (_ || _); [apply pbal_lift; intros dn; apply pbal_publish|].
  intros Hs. cbn. unfold add_pending. destruct (nm_find r (pp_pending s)); (split; [apply nm_set_sorted; auto|]);
    match goal with |- length (nm_set ?k ?v ?m) <= _ => pose proof (nm_set_length_le k v m) end; lia.
Qed.
Lemma pbal_satisfy_one K p k s : pbal 0 s (satisfy_one K p k).
Proof.
  unfold satisfy_one. apply pbal_get. destruct (nm_find k (pp_pending s)) as [e|] eqn:F; [|apply pbal_ret].
  apply pbal_lift. intros d. cbv zeta. destruct (negb _).
  { intros Hs. cbn. split; [apply nm_erase_sorted; auto|]. pose proof (nm_erase_length_le k (pp_pending s)). lia. }
  apply pbal_lift. intros x. destruct (_ || _); [|apply pbal_ret]. apply pbal_lift. intros dn. intros Hs.
  match goal with |- context[pp_publish K k dn ?b ?f] => pose proof (pp_publish_pending K k dn b f s) as P; pose proof (pp_publish_outs K k dn b f s) as O;
    unfold mbind, st, outs in *; destruct (pp_publish K k dn b f s) as [[s1 o1] [u|e1|u|]] eqn:E end; cbn [fst snd mmod] in *; rewrite ?P.
  - cbn [set_pending pp_pending]. rewrite ?P, app_nil_r. split; [apply nm_erase_sorted; auto|].
    pose proof (nm_erase_length_found k (pp_pending s) ltac:(congruence)). lia.
  - unfold pp_publish in E. destruct (publish _ _ _ _ _ _ _) as [q [l|e2|u|]]; inversion E; subst; cbn; split; auto; lia.
  - unfold pp_publish in E. destruct (publish _ _ _ _ _ _ _) as [q [l|e2|u2|]]; inversion E; subst; cbn; split; auto; lia.
  - unfold pp_publish in E. destruct (publish _ _ _ _ _ _ _) as [q [l|e2|u2|]]; inversion E; subst; cbn; split; auto; lia.
Qed.
Lemma pbal_satisfy K p keys : forall s, pbal 0 s (satisfy K p keys).
Proof.
  induction keys as [|k keys IH]; intros s; cbn [satisfy]; [apply pbal_ret|]. change 0 with (0 + 0). apply pbal_bind; [apply pbal_satisfy_one|auto].
Qed.
Definition is_interest (e : pev) : bool := match e with PInterest _ _ => true | _ => false end.
Lemma pbal_step K e s : pbal (if is_interest e then 1 else 0) s (pp_step K e).
Proof.
  destruct e as [p|p|p q|n l|dt|k|i]; cbn [is_interest pp_step].
  - intros Hs. cbn. split; [auto|lia].
  - apply pbal_get, pbal_lift. intros k Hs. cbn. split; [auto|lia].
  - unfold pp_publish_name. apply pbal_get, pbal_lift. intros r. change 0 with (0 + 0). apply pbal_bind; [intros Hs; cbn; split; [auto|lia]|].
    intros _ s1. destruct (snd r); [apply pbal_satisfy|apply pbal_ret].
  - unfold dispatch. destruct (is_prefix _ n); [apply pbal_hello|]. destruct (is_prefix _ n); [apply pbal_sync|apply pbal_ret].
  - intros Hs. cbn. split; [auto|lia].
  - intros Hs. cbn. unfold expire. destruct (nm_find k (pp_pending s)) as [e|] eqn:F; [|split; [auto|lia]].
    destruct (pe_expiry e) as [[dl n]|]; [|split; [auto|lia]]. destruct (N.leb dl (pp_now s)); [|split; [auto|lia]].
    cbn. match goal with |- context[nm_erase n ?m] => pose proof (nm_erase_length_le n m) as L; pose proof (nm_erase_sorted n m) as S1 end.
    rewrite nm_set_length_found in L by (auto; congruence). split; [apply S1, nm_set_sorted; auto|lia].
  - intros Hs. cbn. split; [auto|lia].
Qed.
Lemma pp_run_balance K evs : forall s s' o, nm_sorted (pp_pending s) -> pp_run K s evs = Some (s', o) ->
  length o + length (pp_pending s') <= length (pp_pending s) + length (filter is_interest evs).
Proof.
  unfold pp_run. induction evs as [|e evs IH]; intros s s' o Hs; cbn [run filter].
  - intros [= <- <-]. cbn. lia.
  - pose proof (pbal_step K e s Hs) as [S1 L1]. unfold st, outs in *. destruct (pp_step K e s) as [[s1 o1] [u|x|u|]]; try discriminate; cbn [fst snd] in *;
      (destruct (run (pp_step K) s1 evs) as [[s2 o2]|] eqn:E; [|discriminate]; intros [= <- <-]; specialize (IH s1 s2 o2 S1 E);
       rewrite app_length; destruct (is_interest e); cbn [length]; lia).
Qed.
Lemma lift_outs {A B} (r : outcome A) (f : A -> PM B) s c : (forall a, length (outs (f a s)) <= c) -> length (outs (mbind (mlift r) f s)) <= c.
Proof. intros H. rewrite mbind_lift. destruct r; auto; cbn; lia. Qed.
Lemma hello_outs K p n s : length (outs (on_hello_interest K p n s)) <= 1.
Proof.
  unfold on_hello_interest. rewrite mbind_get. destruct (reply_from_store _ _); [cbn; lia|].
  apply lift_outs. intros [|]; [|cbn; lia]. apply lift_outs. intros dn. apply pp_publish_outs.
Qed.
Lemma sync_outs K p n l s : length (outs (on_sync_interest K p n l s)) <= 1.
Proof.
  unfold on_sync_interest. rewrite mbind_get. destruct (reply_from_store _ _); [cbn; lia|].
  destruct (sync_request p n) as [r|]; [|cbn; lia]. apply lift_outs. intros [[bf t]|]; [|cbn; lia].
  apply lift_outs. intros d. destruct (negb _).
  { unfold pp_send_nack. rewrite mbind_get. apply lift_outs. intros dn. rewrite mbind_mod. cbn. lia. }
  apply lift_outs. intros content. destruct (_ || _); [apply lift_outs; intros dn; apply pp_publish_outs|]. cbn. lia.
Qed.
