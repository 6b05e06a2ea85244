(** Facts about the example applications. *)
From Coq Require Import List NArith ZArith Bool Arith Lia Sorted Permutation.
From Verif Require Import Base BaseFacts Mon MonFacts Iblt Tlv TlvFacts NMap NMapFacts State Store Producer SpecProducer ProducerFacts Partial SpecPartial
  PartialFacts Full FullTrace SpecFull FullFacts FullData FullRenew Consumer Apps.
Import ListNotations.
Local Open Scope N_scope.

(** ** Vocabulary of the statements *)
(** the numbers logged for a stream, in order *)
Definition logged {O} (p : name) (o : list (aout O)) : list N :=
  flat_map (fun x => match x with AoLog q v => if name_eqb p q then [v] else [] | AoLib _ => [] end) o.
Definition lib_outs {O} (o : list (aout O)) : list O :=
  flat_map (fun x => match x with AoLib y => [y] | AoLog _ _ => [] end) o.
(** the updates of a stream that are scheduled *)
Definition due {S} (p : name) (a : exapp S) : list (N * name) := filter (fun x => name_eqb p (snd x)) (ap_timers a).
(** the numbers from [i] on, [n] of them *)
Fixpoint upfrom (i : N) (n : nat) : list N := match n with O => [] | Datatypes.S n => i :: upfrom (i + 1) n end.
Definition one_to (k : N) : list N := upfrom 1 (N.to_nat k).

Lemma logged_app {O} p (a b : list (aout O)) : logged p (a ++ b) = logged p a ++ logged p b.
Proof. apply flat_map_app. Qed.
Lemma lib_outs_app {O} (a b : list (aout O)) : lib_outs (a ++ b) = lib_outs a ++ lib_outs b.
Proof. apply flat_map_app. Qed.
Lemma logged_lib {O} p (l : list O) : logged p (map AoLib l) = [].
Proof. induction l; simpl; auto. Qed.
Lemma lib_outs_lib {O} (l : list O) : lib_outs (map AoLib l) = l.
Proof. induction l; simpl; f_equal; auto. Qed.
Lemma upfrom_snoc n : forall i, upfrom i (Datatypes.S n) = upfrom i n ++ [i + N.of_nat n].
Proof.
  induction n as [|n IH]; intros i; [simpl; f_equal; lia|]. change (upfrom i (Datatypes.S (Datatypes.S n))) with (i :: upfrom (i + 1) (Datatypes.S n)).
  rewrite IH. cbn [upfrom app]. do 2 f_equal. f_equal. lia.
Qed.
Lemma one_to_succ k : one_to (k + 1) = one_to k ++ [k + 1].
Proof. unfold one_to. replace (N.to_nat (k + 1)) with (Datatypes.S (N.to_nat k)) by lia. rewrite upfrom_snoc. do 2 f_equal. lia. Qed.

(** ** What the applications need of the library *)
Record lib_ok {S O E} (L : lib S O E) (inv : S -> Prop) (env : E -> Prop) (quiet : name -> list O -> Prop) : Prop := {
  lo_app : forall p a b, quiet p (a ++ b) -> quiet p a /\ quiet p b;
  lo_env : forall e s s' o x, env e -> inv s -> lb_step L e s = (s', o, Ok x) -> inv s' /\
    forall p k, lb_seq L p s = Some k -> exists k', lb_seq L p s' = Some k' /\ k <= k' < two64 /\ (quiet p o -> k' = k);
  lo_add : forall q s s' o x, inv s -> lb_step L (lb_add L q) s = (s', o, Ok x) -> inv s' /\
    (forall p k, lb_seq L p s = Some k -> lb_seq L p s' = Some k) /\ (lb_seq L q s = None -> lb_seq L q s' = Some 0) /\
    (forall p, p <> q -> lb_seq L p s = None -> lb_seq L p s' = None);
  lo_pub : forall q s s' o x, inv s -> lb_step L (lb_publish L q) s = (s', o, Ok x) -> inv s' /\
    (forall p, p <> q -> lb_seq L p s' = lb_seq L p s) /\
    (forall k, lb_seq L q s = Some k -> lb_seq L q s' = Some (N.max ((k + 1) mod two64) k)) }.

Section Apps.
Context {S O E : Type} (L : lib S O E) (inv : S -> Prop) (env : E -> Prop) (quiet : name -> list O -> Prop) (Ok1 : lib_ok L inv env quiet).

Definition aenv (e : aev E) : Prop := match e with AeLib e => env e | AeUpdate _ _ => True end.

(** where a stream stands; [n] counts its scheduled updates *)
Record stream (p : name) (max : N) (k : N) (l : list N) (n : nat) (q : Prop) : Prop := mkStream {
  sm_sorted : StronglySorted N.lt l;
  sm_le : Forall (fun v => v <= k) l;
  sm_timer : (n = 1%nat /\ Forall (fun v => v < max) l) \/ (n = 0%nat /\ exists v, In v l /\ max <= v);
  sm_exact : q -> l = one_to k /\ k <= N.max 1 max }.
Definition at_stream (p : name) (a : exapp S) (o : list (aout O)) : Prop :=
  ap_max a < two64 /\ inv (ap_lib a) /\
  exists k, lb_seq L p (ap_lib a) = Some k /\ k < two64 /\
    stream p (ap_max a) k (logged p o) (length (due p a)) (quiet p (lib_outs o)).

Lemma sorted_snoc l v : StronglySorted N.lt l -> Forall (fun x => x < v) l -> StronglySorted N.lt (l ++ [v]).
Proof.
  induction 1 as [|x l Sl IH Fx]; intros F; [repeat constructor|]. inversion F; subst. cbn [app]. constructor; [auto|].
  apply Forall_app. split; [exact Fx|repeat constructor; assumption].
Qed.
Lemma env_stream p e a o a' o' x : env e -> at_stream p a o -> in_lib (lb_step L e) a = (a', o', Ok x) -> at_stream p a' (o ++ o').
Proof.
  unfold in_lib. intros He (Mx & I & k & Hk & Kb & St) Es. destruct (lb_step L e (ap_lib a)) as [[s1 o1] r1] eqn:Z. injection Es as <- <- ->.
  destruct (lo_env _ _ _ _ Ok1 e _ _ _ _ He I Z) as [I1 H]. destruct (H p k Hk) as (k' & Hk' & Kk & Q).
  split; [exact Mx|]. split; [exact I1|]. exists k'. split; [exact Hk'|]. split; [lia|].
  rewrite logged_app, logged_lib, app_nil_r, lib_outs_app, lib_outs_lib. destruct St as [S1 S2 S3 S4]. constructor.
  - exact S1.
  - eapply Forall_impl; [|exact S2]. cbv beta. intros v Hv. lia.
  - exact S3.
  - intros Qa. apply (lo_app _ _ _ _ Ok1) in Qa as [Q1 Q2]. rewrite (Q Q2). apply S4. exact Q1.
Qed.

Lemma one_to_last k : 1 <= k -> In k (one_to k).
Proof. intros H. replace k with (k - 1 + 1) at 2 by lia. rewrite one_to_succ. apply in_or_app. right. left. lia. Qed.
(** the update of stream [q] runs, its timer having been taken out *)
Lemma update_stream p q r a ts o a' o' x : at_stream p a o ->
  (length (filter (fun x => name_eqb p (snd x)) ts) + (if name_eqb p q then 1 else 0) = length (due p a))%nat ->
  do_update L q r (mkApp (ap_lib a) ts (ap_max a)) = (a', o', Ok x) -> at_stream p a' (o ++ o').
Proof.
  intros (Mx & I & k & Hk & Kb & St) Hn Es. unfold do_update in Es. unfold mbind at 1 in Es. unfold in_lib in Es. cbn [ap_lib ap_timers ap_max] in Es.
  destruct (lb_step L (lb_publish L q) (ap_lib a)) as [[s1 o1] r1] eqn:Z. destruct r1 as [u|e|u|]; try discriminate.
  destruct (lo_pub _ _ _ _ Ok1 q _ _ _ _ I Z) as (I1 & Ho & Hq). rewrite mbind_get in Es. cbn [ap_lib ap_max] in Es.
  destruct (lb_seq L q s1) as [v|] eqn:Sq; [|discriminate]. rewrite mbind_emit in Es.
  set (a1 := mkApp s1 ts (ap_max a)) in *.
  assert (exists ts', a' = mkApp s1 ts' (ap_max a) /\ o' = map AoLib o1 ++ [AoLog q v] /\
    length (filter (fun x => name_eqb p (snd x)) ts') =
      (length (filter (fun x => name_eqb p (snd x)) ts) + (if name_eqb p q then if (v <? ap_max a)%N then 1 else 0 else 0))%nat) as (ts' & -> & -> & Ht).
  { destruct (v <? ap_max a); unfold ap_schedule, mmod, mret in Es; cbn [fst snd] in Es; injection Es as <- <-.
    - eexists. split; [reflexivity|]. split; [rewrite ?app_nil_r; reflexivity|]. rewrite filter_app, app_length. cbn [filter snd].
      destruct (name_eqb p q); reflexivity.
    - eexists. split; [reflexivity|]. split; [rewrite ?app_nil_r; reflexivity|]. destruct (name_eqb p q); lia. }
  split; [exact Mx|]. split; [exact I1|]. destruct St as [S1 S2 S3 S4]. unfold due. cbn [ap_timers ap_lib ap_max].
  rewrite !logged_app, logged_lib, !lib_outs_app, lib_outs_lib. cbn [logged flat_map lib_outs app]. rewrite Ht, app_nil_r.
  destruct (name_eqb p q) eqn:Epq.
  - apply name_eqb_eq in Epq. subst q. rewrite app_nil_r. exists v. split; [exact Sq|]. specialize (Hq k Hk). injection Hq as Hv.
    destruct S3 as [[Nt Fm]|[Nt _]]; [|lia].
    assert (v < two64) as Vb. { rewrite Hv. apply N.max_lub_lt; [apply N.mod_lt; discriminate|exact Kb]. }
    assert (Forall (fun x => x < v) (logged p o)) as Fv.
    { rewrite Forall_forall in *. intros y Hy. specialize (S2 y Hy). specialize (Fm y Hy). cbv beta in *.
      destruct (N.lt_ge_cases (k + 1) two64) as [Lk|Lk]; [rewrite N.mod_small in Hv by exact Lk; lia|]. lia. }
    split; [exact Vb|]. constructor.
    + apply sorted_snoc; assumption.
    + apply Forall_app. split; [|repeat constructor; lia]. eapply Forall_impl; [|exact Fv]. cbv beta. intros y Hy. lia.
    + destruct (v <? ap_max a) eqn:Lv; [apply N.ltb_lt in Lv; left|apply N.ltb_ge in Lv; right]; (split; [lia|]).
      * apply Forall_app. split; [exact Fm|repeat constructor; exact Lv].
      * exists v. split; [apply in_or_app; right; left; reflexivity|exact Lv].
    + intros Q. apply (lo_app _ _ _ _ Ok1) in Q as [Q _]. destruct (S4 Q) as [El Le].
      assert (k + 1 <= N.max 1 (ap_max a)) as Le1.
      { destruct (N.eq_dec k 0) as [->|]; [lia|]. rewrite Forall_forall in Fm. assert (k < ap_max a) by (apply Fm; rewrite El; apply one_to_last; lia). lia. }
      assert (k + 1 < two64) as Lk by (unfold two64 in *; lia). rewrite N.mod_small in Hv by exact Lk. replace v with (k + 1) in * by lia.
      split; [|exact Le1]. rewrite one_to_succ, El. reflexivity.
  - apply name_eqb_neq in Epq. exists k. rewrite app_nil_r. split; [rewrite Ho by exact Epq; exact Hk|]. split; [exact Kb|]. constructor; try assumption.
    + replace (length _ + 0)%nat with (length (due p a)) by lia. exact S3.
    + intros Q. apply (lo_app _ _ _ _ Ok1) in Q as [Q _]. auto.
Qed.
Lemma filter_take {A} (f : A -> bool) i x l : nth_error l i = Some x ->
  (length (filter f (firstn i l ++ skipn (Datatypes.S i) l)) + (if f x then 1 else 0) = length (filter f l))%nat.
Proof.
  revert i. induction l as [|y l IH]; intros [|i]; try discriminate.
  - intros [= ->]. cbn [firstn skipn app filter]. destruct (f x); cbn [length]; lia.
  - intros H. cbn [firstn]. change (skipn (Datatypes.S (Datatypes.S i)) (y :: l)) with (skipn (Datatypes.S i) l). cbn [app filter].
    specialize (IH i H). destruct (f y); cbn [length]; lia.
Qed.
Lemma step_stream p e a o a' o' x : aenv e -> at_stream p a o -> app_step L e a = (a', o', Ok x) -> at_stream p a' (o ++ o').
Proof.
  intros He At. destruct e as [e|i r]; cbn [app_step].
  - apply env_stream; assumption.
  - rewrite mbind_get. destruct (nth_error (ap_timers a) i) as [[dl q]|] eqn:Et.
    + destruct (dl <=? lb_now L (ap_lib a)).
      * rewrite mbind_mod. apply update_stream; [exact At|]. apply (filter_take (fun x => name_eqb p (snd x)) i (dl, q)). exact Et.
      * intros [= <- <-]. rewrite app_nil_r. exact At.
    + intros [= <- <-]. rewrite app_nil_r. exact At.
Qed.
Lemma run_stream p evs : forall a o a' o', Forall aenv evs -> at_stream p a o -> app_run L a evs = Some (a', o') -> at_stream p a' (o ++ o').
Proof.
  induction evs as [|e evs IH]; intros a o a' o' F At; cbn [app_run].
  - intros [= <- <-]. rewrite app_nil_r. exact At.
  - inversion F; subst. destruct (app_step L e a) as [[a1 o1] r] eqn:Es. destruct r as [x|?|?|]; try discriminate.
    destruct (app_run L a1 evs) as [[a2 o2]|] eqn:R; [|discriminate]. intros [= <- <-]. rewrite app_assoc.
    apply (IH a1); [assumption| |exact R]. apply (step_stream p e a o a1 o1 x); assumption.
Qed.
(** the constructor *)
Lemma add_stream streams : forall a o a' o' x, add_streams L streams a = (a', o', Ok x) -> NoDup (map fst streams) -> inv (ap_lib a) ->
  (forall p, In p (map fst streams) -> lb_seq L p (ap_lib a) = None /\ due p a = []) -> (forall p, logged p o = []) ->
  inv (ap_lib a') /\ ap_max a' = ap_max a /\ (forall p, logged p (o ++ o') = []) /\
  (forall p, In p (map fst streams) -> lb_seq L p (ap_lib a') = Some 0 /\ length (due p a') = 1%nat) /\
  (forall p k, ~ In p (map fst streams) -> lb_seq L p (ap_lib a) = Some k -> lb_seq L p (ap_lib a') = Some k) /\
  (forall p, ~ In p (map fst streams) -> length (due p a') = length (due p a)).
Proof.
  induction streams as [|[q r] l IH]; intros a o a' o' x; cbn [add_streams].
  - intros [= <- <-] _ I _ Lg. split; [exact I|]. split; [reflexivity|]. split; [intros p; rewrite app_nil_r; apply Lg|]. split; [intros p []|]. auto.
  - unfold mbind at 1. unfold in_lib. destruct (lb_step L (lb_add L q) (ap_lib a)) as [[s1 o1] r1] eqn:Z. destruct r1 as [u|e|u|]; try discriminate.
    unfold ap_schedule. rewrite mbind_mod. cbn [ap_lib ap_timers ap_max]. set (a1 := mkApp s1 _ _).
    destruct (add_streams L l a1) as [[a2 o2] r2] eqn:A2. intros [= <- <- ->] Nd I Hp Lg. cbn [map fst] in *. inversion Nd; subst.
    destruct (lo_add _ _ _ _ Ok1 q _ _ _ _ I Z) as (I1 & Ha & H2' & H3').
    assert (forall p, due p a1 = due p a ++ (if name_eqb p q then [(lb_now L s1 + r, q)] else [])) as Hd.
    { intros p. unfold due, a1. cbn [ap_timers]. rewrite filter_app. cbn [filter snd]. reflexivity. }
    destruct (IH a1 (o ++ map AoLib o1) a2 o2 x A2) as (J1 & J2 & J3 & J4 & J5 & J6).
    + assumption.
    + exact I1.
    + intros p Hi. destruct (Hp p (or_intror Hi)) as [P1 P2]. assert (p <> q) as Ne by (intros ->; contradiction). split; [apply H3'; assumption|].
      rewrite Hd, P2. apply name_eqb_neq in Ne. rewrite Ne. reflexivity.
    + intros p. rewrite logged_app, Lg, logged_lib. reflexivity.
    + split; [exact J1|]. split; [exact J2|]. split; [intros p; rewrite app_assoc; apply J3|]. split; [|split].
      * intros p [<-|Hi]; [|apply J4; exact Hi]. destruct (Hp q (or_introl eq_refl)) as [P1 P2]. split; [apply J5; [assumption|apply H2'; exact P1]|].
        rewrite J6, Hd, P2, name_eqb_refl by assumption. reflexivity.
      * intros p k Hi Hk. cbn [In] in Hi. apply J5; [tauto|]. apply Ha. exact Hk.
      * intros p Hi. cbn [In] in Hi. rewrite J6, Hd by tauto. assert (p <> q) as Ne by (intros ->; tauto). apply name_eqb_neq in Ne. rewrite Ne, app_nil_r. reflexivity.
Qed.
Theorem start_stream s max streams evs a o p : inv s -> (forall p, lb_seq L p s = None) -> NoDup (map fst streams) ->
  Forall aenv evs -> app_start L s max streams evs = Some (a, o) -> In p (map fst streams) -> at_stream p a o /\ ap_max a = max_of_int max.
Proof.
  intros I Hs Nd F H Hp. unfold app_start in H. destruct (add_streams L streams (mkApp s [] (max_of_int max))) as [[a1 o1] r] eqn:A.
  destruct r as [x|?|?|]; try discriminate. destruct (app_run L a1 evs) as [[a2 o2]|] eqn:R; [|discriminate]. injection H as <- <-.
  destruct (add_stream streams _ [] _ _ _ A Nd I) as (J1 & J2 & J3 & J4 & _).
  - intros q _. split; [apply Hs|reflexivity].
  - reflexivity.
  - assert (at_stream p a1 o1) as At.
    { split. { rewrite J2. cbn [ap_max]. unfold max_of_int. assert (0 <= max mod Z.of_N two64 < Z.of_N two64)%Z by (apply Z.mod_pos_bound; reflexivity). lia. }
      split; [exact J1|]. destruct (J4 p Hp) as [K1 K2]. exists 0. split; [exact K1|]. split; [reflexivity|].
      specialize (J3 p). cbn [app] in J3. rewrite J3, K2. constructor; [constructor|constructor|left; split; [reflexivity|constructor]|].
      intros _. split; [reflexivity|lia]. }
    split; [exact (run_stream p evs a1 o1 a2 o2 F At R)|].
    assert (forall evs a a' o', app_run L a evs = Some (a', o') -> ap_max a' = ap_max a) as Mx.
    { clear. induction evs as [|e evs IH]; intros a a' o'; cbn [app_run]; [intros [= <- <-]; reflexivity|].
      destruct (app_step L e a) as [[a1 o1] r] eqn:Es. destruct r as [x|?|?|]; try discriminate.
      destruct (app_run L a1 evs) as [[a2 o2]|] eqn:R; [|discriminate]. intros [= <- _]. rewrite (IH _ _ _ R). clear - Es.
      assert (forall (m : M S O unit) a, ap_max (fst (fst (in_lib m a))) = ap_max a) as Q.
      { intros m b. unfold in_lib. destruct (m (ap_lib b)) as [[? ?] ?]. reflexivity. }
      destruct e as [e|i r]; cbn [app_step] in Es; [specialize (Q (lb_step L e) a); rewrite Es in Q; exact Q|].
      rewrite mbind_get in Es. destruct (nth_error _ _) as [[dl q]|]; [|injection Es as <- _; reflexivity].
      destruct (dl <=? _); [|injection Es as <- _; reflexivity]. rewrite mbind_mod in Es. unfold do_update in Es. unfold mbind at 1 in Es.
      specialize (Q (lb_step L (lb_publish L q)) (mkApp (ap_lib a) (firstn i (ap_timers a) ++ skipn (Datatypes.S i) (ap_timers a)) (ap_max a))).
      destruct (in_lib _ _) as [[b1 p1] [u|?|?|]]; try discriminate. cbn [fst ap_max] in Q. rewrite mbind_get in Es.
      destruct (lb_seq L q (ap_lib b1)); [|discriminate]. rewrite mbind_emit in Es.
      destruct (_ <? _); injection Es as <- _; exact Q. }
    rewrite (Mx _ _ _ _ R), J2. reflexivity.
Qed.
(** only streams are scheduled *)
Definition scheduled_in (l : list name) (a : exapp S) : Prop := forall dl q, In (dl, q) (ap_timers a) -> In q l.
Lemma in_lib_timers (m : M S O unit) a : ap_timers (fst (fst (in_lib m a))) = ap_timers a.
Proof. unfold in_lib. destruct (m (ap_lib a)) as [[? ?] ?]. reflexivity. Qed.
Lemma firstn_skipn_in {A} i (l : list A) x : In x (firstn i l ++ skipn (Datatypes.S i) l) -> In x l.
Proof.
  intros H. apply in_app_or in H as [H|H]; [rewrite <- (firstn_skipn i l); apply in_or_app; left; exact H|].
  rewrite <- (firstn_skipn (Datatypes.S i) l). apply in_or_app. right. exact H.
Qed.
Lemma step_scheduled l e a a' o x : scheduled_in l a -> app_step L e a = (a', o, x) -> scheduled_in l a'.
Proof.
  intros H Es. destruct e as [e|i r]; cbn [app_step] in Es.
  - pose proof (in_lib_timers (lb_step L e) a) as T. rewrite Es in T. cbn in T. intros dl q Hq. rewrite T in Hq. eauto.
  - rewrite mbind_get in Es. destruct (nth_error _ _) as [[dl q]|] eqn:Nt; [|injection Es as <- _ _; exact H].
    destruct (dl <=? _); [|injection Es as <- _ _; exact H]. rewrite mbind_mod in Es. unfold do_update in Es. unfold mbind at 1 in Es.
    set (a1 := mkApp _ _ _) in Es. pose proof (in_lib_timers (lb_step L (lb_publish L q)) a1) as T.
    assert (scheduled_in l a1) as H1 by (intros d p Hp; apply (H d p); eapply firstn_skipn_in; exact Hp).
    assert (scheduled_in l (fst (fst (in_lib (lb_step L (lb_publish L q)) a1)))) as H2 by (intros d p Hp; rewrite T in Hp; eapply H1; exact Hp).
    destruct (in_lib _ a1) as [[b1 p1] [u|y|y|]]; cbn [fst] in H2; try (injection Es as <- _ _; exact H2). rewrite mbind_get in Es.
    destruct (lb_seq L q (ap_lib b1)); [|injection Es as <- _ _; exact H2]. rewrite mbind_emit in Es.
    destruct (_ <? _); injection Es as <- _ _; [|exact H2]. intros d p Hp. cbn [ap_timers] in Hp. apply in_app_or in Hp as [Hp|[Hp|[]]]; [eapply H2; exact Hp|].
    injection Hp as _ <-. apply (H dl q). eapply nth_error_In; exact Nt.
Qed.
Lemma start_scheduled s max streams evs a o : app_start L s max streams evs = Some (a, o) -> scheduled_in (map fst streams) a.
Proof.
  unfold app_start. intros H. destruct (add_streams L streams (mkApp s [] (max_of_int max))) as [[a1 o1] r] eqn:A.
  destruct r as [x|?|?|]; try discriminate. destruct (app_run L a1 evs) as [[a2 o2]|] eqn:R; [|discriminate]. injection H as <- <-.
  assert (scheduled_in (map fst streams) a1) as H1.
  { assert (forall l b b' o' r', scheduled_in (map fst streams) b -> incl (map fst l) (map fst streams) -> add_streams L l b = (b', o', r') -> scheduled_in (map fst streams) b') as G.
    { clear. induction l as [|[q t] l IH]; intros b b' o' r' H I Ea; cbn [add_streams] in Ea; [injection Ea as <- _ _; exact H|].
      unfold mbind at 1 in Ea. pose proof (in_lib_timers (lb_step L (lb_add L q)) b) as T. destruct (in_lib _ b) as [[b1 p1] [u|y|y|]]; cbn [fst] in T.
      2-4: injection Ea as <- _ _; intros d p Hp; rewrite T in Hp; eauto.
      unfold ap_schedule in Ea. rewrite mbind_mod in Ea. destruct (add_streams L l _) as [[b2 o2] r2] eqn:A2. injection Ea as <- _ _.
      eapply IH; [| |exact A2]; [|intros p Hp; apply I; right; exact Hp].
      intros d p Hp. cbn [ap_timers] in Hp. rewrite T in Hp. apply in_app_or in Hp as [Hp|[Hp|[]]]; [eauto|]. injection Hp as _ <-. apply I. left. reflexivity. }
    eapply G; [| |exact A]; [intros d p []|intros p Hp; exact Hp]. }
  clear A. revert a1 a2 o2 R H1. induction evs as [|e evs IH]; intros a1 a2 o2 R H1; cbn [app_run] in R; [injection R as <- _; exact H1|].
  destruct (app_step L e a1) as [[a3 o3] r] eqn:Es. destruct r as [y|?|?|]; try discriminate. destruct (app_run L a3 evs) as [[a4 o4]|] eqn:R4; [|discriminate].
  injection R as <- _. eapply IH; [exact R4|]. eapply step_scheduled; eauto.
Qed.
(** a scheduled update ends as its publication ends: value() does not throw *)
Theorem update_ends s max streams evs a o i r dl p s' o' x : inv s -> (forall p, lb_seq L p s = None) -> NoDup (map fst streams) ->
  Forall aenv evs -> app_start L s max streams evs = Some (a, o) ->
  nth_error (ap_timers a) i = Some (dl, p) -> dl <= lb_now L (ap_lib a) -> lb_step L (lb_publish L p) (ap_lib a) = (s', o', x) ->
  snd (app_step L (AeUpdate i r) a) = x.
Proof.
  intros I Hs Nd F H Nt Ld Ep.
  assert (In p (map fst streams)) as Hp by (eapply (start_scheduled s max streams evs a o H dl); eapply nth_error_In; exact Nt).
  destruct (start_stream s max streams evs a o p I Hs Nd F H Hp) as [(_ & Ia & k & Hk & _) _].
  cbn [app_step]. rewrite mbind_get, Nt. apply N.leb_le in Ld. rewrite Ld, mbind_mod. unfold do_update. unfold mbind at 1, in_lib. cbn [ap_lib ap_timers ap_max].
  rewrite Ep. destruct x as [[]|y|y|]; try reflexivity. destruct (lo_pub _ _ _ _ Ok1 p _ _ _ _ Ia Ep) as (_ & _ & Hq). rewrite mbind_get. cbn [ap_lib]. rewrite (Hq k Hk).
  rewrite mbind_emit. cbn [ap_max]. destruct (_ <? _); reflexivity.
Qed.
End Apps.

(** ** The two libraries *)
(** the network and the scheduler; the application calls nothing else *)
Definition partial_env (e : pev) : Prop :=
  match e with PInterest _ _ | PTick _ | PExpire _ | PStoreFire _ => True | _ => False end.
Lemma partial_ok K : lib_ok (partial_lib K) (fun s => pfx_ok (k_prefixes (pp_core s))) partial_env (fun _ _ => True).
Proof.
  assert (forall e s s' o x, pp_step K e s = (s', o, Ok x) -> crun (pp_core s) (core_op e) = Ok (pp_core s')) as C.
  { intros e s s' o x Es. pose proof (pp_step_core K e s) as H. rewrite Es in H. apply H; discriminate. }
  assert (forall k op k', pfx_ok (k_prefixes k) -> cop_wf op -> crun k [op] = Ok k' ->
    pfx_ok (k_prefixes k') /\ forall p, get_seq p k' = seq_step p (get_seq p k) op) as St.
  { intros k op k' Pf W R. cbn [crun] in R. destruct (cstep k op) as [k1|?|?|] eqn:Ec; try discriminate. injection R as <-.
    split; [eapply cstep_pfx; eauto|]. intros p. apply get_seq_step; assumption. }
  split.
  - auto.
  - cbn [lb_step lb_seq partial_lib]. intros e s s' o x He I Es. apply C in Es.
    assert (core_op e = []) as Eo by (destruct e; try contradiction; reflexivity). rewrite Eo in Es. injection Es as Es. rewrite <- Es.
    split; [exact I|]. intros p k Hk. exists k. split; [exact Hk|]. split; [|reflexivity]. split; [lia|]. destruct I as [_ B]. eapply B; exact Hk.
  - cbn [lb_step lb_seq lb_add partial_lib]. intros q s s' o x I Es. apply C in Es. destruct (St _ (CAdd q) _ I Logic.I Es) as [I1 H]. cbn [seq_step] in H.
    split; [exact I1|]. split; [|split].
    + intros p k Hk. rewrite H, Hk. destruct (name_eqb p q); reflexivity.
    + intros Hq. rewrite H, Hq, name_eqb_refl. reflexivity.
    + intros p Ne Hp. rewrite H, Hp. apply name_eqb_neq in Ne. rewrite Ne. reflexivity.
  - cbn [lb_step lb_seq lb_publish partial_lib]. intros q s s' o x I Es. apply C in Es. destruct (St _ (CPublish q None) _ I Logic.I Es) as [I1 H]. cbn [seq_step] in H.
    split; [exact I1|]. split.
    + intros p Ne. rewrite H. apply name_eqb_neq in Ne. rewrite Ne. reflexivity.
    + intros k Hk. rewrite H, Hk, name_eqb_refl. reflexivity.
Qed.
(** the application's update callback calls nothing *)
Definition full_env (e : fev) : Prop :=
  match e with FeApi _ => False | FeContent _ _ script => script = [] | _ => True end.
(** no other node announced a number of [p] beyond the node's own *)
Definition untouched (p : name) (o : list fout) : Prop := forall v, ~ In (CUpdate p v) (ops_of o).
Lemma fsatisfy_core K u keys : forall s, f_core (st (fsatisfy K u keys s)) = f_core s.
Proof.
  induction keys as [|k keys IH]; intros s; cbn [fsatisfy]; [reflexivity|].
  assert (f_core (st (fsatisfy_one K u k s)) = f_core s) as H.
  { unfold fsatisfy_one. rewrite mbind_get. destruct (nm_find k (f_pending s)) as [e|]; [|reflexivity].
    rewrite mbind_lift. destruct (iblt_sub _ _ _) as [d|x|x|]; try reflexivity.
    pose proof (data_core K k (satisfy_content (k_bimap (f_core s)) u (positive d)) (fc_fresh K) s) as D.
    unfold mbind. destruct (send_sync_data _ _ _ _ s) as [[s1 o1] [x|x|x|]]; exact D. }
  unfold mbind. destruct (fsatisfy_one K u k s) as [[s1 o1] [x|x|x|]]; try exact H.
  specialize (IH s1). cbn [st fst] in *. destruct (fsatisfy K u keys s1) as [[s2 o2] r2]. cbn [st fst] in *. congruence.
Qed.
Lemma publish_core K s p s' o x : fp_step K (FeApi (APublish p None)) s = (s', o, Ok x) ->
  match get_seq p (f_core s) with
  | Some _ => cstep (f_core s) (CPublish p None) = Ok (f_core s')
  | None => f_core s' = f_core s
  end.
Proof.
  cbn [fp_step api_call]. unfold fp_publish_name. rewrite mbind_get. destruct (get_seq p (f_core s)) as [v|].
  - intros E. unfold fp_op in E. rewrite !mbind_assoc, mbind_get, mbind_assoc, mbind_lift in E.
    destruct (cstep (f_core s) (CPublish p None)) as [k|y|y|] eqn:C; try discriminate.
    rewrite mbind_assoc, mbind_mod, mbind_emit, mbind_mod in E. cbn [fst snd] in E.
    set (s1 := fset_wait false (fset_core k s)) in *.
    pose proof (fsatisfy_core K (append_number p (publish_seq v None)) (nm_keys (f_pending s)) s1) as F.
    destruct (fsatisfy _ _ _ s1) as [[s2 o2] r2]. cbn [st fst] in E, F. injection E as <- _ _. unfold st in F. cbn [fst] in F. f_equal. symmetry. exact F.
  - intros [= <- _]. reflexivity.
Qed.
Definition env_op (o : cop) : Prop := cop_wf o /\ match o with CAdd _ | CUpdate _ _ => True | _ => False end.
Lemma env_ops K s e : full_env e -> Forall env_op (ops_of (outs (fp_step K e s))).
Proof.
  intros He. apply (tr_step K env_op (sop_rel env_op) (sop_closed K env_op)).
  all: try (intros; split; [assumption || exact I|exact I]).
  all: try (split; intros; constructor; fail).
  all: try (intros; constructor; fail).
  destruct e; try contradiction; try constructor. cbn [full_env ev_ops] in *. subst. constructor.
Qed.
Lemma env_seqs ops p : forall k, Forall env_op ops -> k < two64 ->
  exists k', fold_left (seq_step p) ops (Some k) = Some k' /\ k <= k' < two64 /\ ((forall v, ~ In (CUpdate p v) ops) -> k' = k).
Proof.
  induction ops as [|op ops IH]; intros k F Lk; [exists k; repeat split; auto; lia|]. inversion F as [|? ? [W He] F']; subst. cbn [fold_left].
  destruct op as [q|q|q v|q v]; try contradiction; cbn [seq_step].
  - replace (if name_eqb p q then Some k else Some k) with (Some k) by (destruct (name_eqb p q); reflexivity).
    destruct (IH k F' Lk) as (k' & E & B & Q). exists k'. split; [exact E|]. split; [exact B|]. intros N. apply Q. intros v H. apply (N v). right. exact H.
  - destruct (name_eqb p q) eqn:Epq.
    + apply name_eqb_eq in Epq. subst q. cbn [option_map]. cbn [cop_wf] in W. destruct (IH (N.max v k) F') as (k' & E & B & Q); [lia|].
      exists k'. split; [exact E|]. split; [lia|]. intros N. exfalso. apply (N v). left. reflexivity.
    + destruct (IH k F' Lk) as (k' & E & B & Q). exists k'. split; [exact E|]. split; [exact B|]. intros N. apply Q. intros w H. apply (N w). right. exact H.
Qed.
Lemma full_ok K : lib_ok (full_lib K) (fun s => pfx_ok (k_prefixes (f_core s))) full_env untouched.
Proof.
  assert (forall k op k', pfx_ok (k_prefixes k) -> cop_wf op -> cstep k op = Ok k' ->
    pfx_ok (k_prefixes k') /\ forall p, get_seq p k' = seq_step p (get_seq p k) op) as St.
  { intros k op k' Pf W R. split; [eapply cstep_pfx; eauto|]. intros p. apply get_seq_step; assumption. }
  split.
  - intros p a b H. unfold untouched in *. split; intros v Hv; apply (H v); rewrite ops_of_app; apply in_or_app; auto.
  - cbn [lb_step lb_seq full_lib]. intros e s s' o x He I Es.
    pose proof (step_core K s e) as C. unfold core_rel in C. pose proof (env_ops K s e He) as F. rewrite Es in C, F. cbn [outs st fst snd] in C, F.
    assert (Forall cop_wf (ops_of o)) as W by (eapply Forall_impl; [|exact F]; intros op Hop; apply Hop).
    split; [eapply crun_pfx; eauto|]. intros p k Hk. rewrite (get_seq_run p _ _ _ I W C), Hk. apply env_seqs; [exact F|].
    destruct I as [_ B]. eapply B; exact Hk.
  - cbn [lb_step lb_seq lb_add full_lib]. intros q s s' o x I Es.
    assert (cstep (f_core s) (CAdd q) = Ok (f_core s')) as C.
    { cbn [fp_step api_call] in Es. unfold fp_op in Es. rewrite mbind_get, mbind_lift in Es. cbn [cstep] in *.
      rewrite mbind_mod in Es. injection Es as <- _. reflexivity. }
    destruct (St _ (CAdd q) _ I Logic.I C) as [I1 H]. cbn [seq_step] in H. split; [exact I1|]. split; [|split].
    + intros p k Hk. rewrite H, Hk. destruct (name_eqb p q); reflexivity.
    + intros Hq. rewrite H, Hq, name_eqb_refl. reflexivity.
    + intros p Ne Hp. rewrite H, Hp. apply name_eqb_neq in Ne. rewrite Ne. reflexivity.
  - cbn [lb_step lb_seq lb_publish full_lib]. intros q s s' o x I Es. apply publish_core in Es. destruct (get_seq q (f_core s)) as [v|] eqn:G.
    + destruct (St _ (CPublish q None) _ I Logic.I Es) as [I1 H]. cbn [seq_step] in H. split; [exact I1|]. split.
      * intros p Ne. rewrite H. apply name_eqb_neq in Ne. rewrite Ne. reflexivity.
      * intros k Hk. injection Hk as <-. rewrite H, G, name_eqb_refl. reflexivity.
    + rewrite Es. split; [exact I|]. split; [reflexivity|]. intros k Hk. discriminate.
Qed.
