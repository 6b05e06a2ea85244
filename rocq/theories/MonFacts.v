(** Reasoning about handlers. *)
From Coq Require Import List Bool.
From Verif Require Import Base Mon.
Import ListNotations.

Section Mon.
Context {S O : Type}.
Implicit Types s : S.

Lemma mbind_ok {A B} (m : M S O A) (f : A -> M S O B) s s' o b :
  mbind m f s = (s', o, Ok b) ->
  exists s1 o1 a o2, m s = (s1, o1, Ok a) /\ f a s1 = (s', o2, Ok b) /\ o = o1 ++ o2.
Proof.
  unfold mbind. destruct (m s) as [[s1 o1] [a| | |]]; try discriminate.
  destruct (f a s1) as [[s2 o2] r2] eqn:E. intros [= <- <- ->]. eauto 8.
Qed.
Lemma mbind_inv {A B} (m : M S O A) (f : A -> M S O B) s :
  (exists s1 o1 a, m s = (s1, o1, Ok a) /\
     mbind m f s = (st (f a s1), o1 ++ outs (f a s1), res (f a s1))) \/
  (exists s1 o1 r, m s = (s1, o1, r) /\ (forall a, r <> Ok a) /\
     st (mbind m f s) = s1 /\ outs (mbind m f s) = o1 /\
     (forall b, res (mbind m f s) <> Ok b) /\
     (forall e, res (mbind m f s) = Throw e <-> r = Throw e)).
Proof.
  unfold mbind, st, outs, res. destruct (m s) as [[s1 o1] [a|e|u|]].
  - left. exists s1, o1, a. split; auto. destruct (f a s1) as [[s2 o2] r2]. reflexivity.
  - right. exists s1, o1, (Throw e). repeat split; auto; try discriminate; simpl; congruence.
  - right. exists s1, o1, (UB u). repeat split; auto; try discriminate; simpl; congruence.
  - right. exists s1, o1, Hang. repeat split; auto; try discriminate; simpl; congruence.
Qed.

(** [keeps R m]: executing [m] relates the states before and after by [R], however it ends *)
Definition keeps {A} (R : S -> S -> Prop) (m : M S O A) : Prop := forall s, R s (st (m s)).
Section Keeps.
Variable R : S -> S -> Prop.
Hypothesis Rrefl : forall s, R s s.
Hypothesis Rtrans : forall a b c, R a b -> R b c -> R a c.
Lemma keeps_ret {A} (a : A) : keeps R (mret a). Proof. intros s. apply Rrefl. Qed.
Lemma keeps_get : keeps R mget. Proof. intros s. apply Rrefl. Qed.
Lemma keeps_emit o : keeps R (memit o). Proof. intros s. apply Rrefl. Qed.
Lemma keeps_lift {A} (r : outcome A) : keeps R (mlift r). Proof. intros s. apply Rrefl. Qed.
Lemma keeps_mod f : (forall s, R s (f s)) -> keeps R (mmod f). Proof. intros H s. apply H. Qed.
Lemma keeps_bind {A B} (m : M S O A) (f : A -> M S O B) :
  keeps R m -> (forall a, keeps R (f a)) -> keeps R (mbind m f).
Proof.
  intros Hm Hf s. unfold mbind, st. specialize (Hm s). unfold st in Hm.
  destruct (m s) as [[s1 o1] [a| | |]]; auto. specialize (Hf a s1). unfold st in Hf.
  destruct (f a s1) as [[s2 o2] r2]. simpl in *. eauto.
Qed.
End Keeps.

(** [hoare I P m]: from states satisfying [I], [m] ends in a state satisfying [I] and emits only
    things satisfying [P] *)
Definition hoare {A} (I : S -> Prop) (P : O -> Prop) (m : M S O A) : Prop :=
  forall s, I s -> I (st (m s)) /\ Forall P (outs (m s)).
Lemma hoare_ret {A} I P (a : A) : hoare I P (mret a).
Proof. intros s Hs. split; [exact Hs|constructor]. Qed.
Lemma hoare_get I P : hoare I P mget.
Proof. intros s Hs. split; [exact Hs|constructor]. Qed.
Lemma hoare_lift {A} I P (r : outcome A) : hoare I P (mlift r).
Proof. intros s Hs. split; [exact Hs|constructor]. Qed.
Lemma hoare_mod (I : S -> Prop) P f : (forall s, I s -> I (f s)) -> hoare I P (mmod f).
Proof. intros H s Hs. split; [apply H; exact Hs|constructor]. Qed.
Lemma hoare_emit I (P : O -> Prop) o : Forall P o -> hoare I P (memit o).
Proof. intros H s Hs. split; [exact Hs|exact H]. Qed.
Lemma hoare_bind {A B} I P (m : M S O A) (f : A -> M S O B) :
  hoare I P m -> (forall a, hoare I P (f a)) -> hoare I P (mbind m f).
Proof.
  intros Hm Hf s Hs. specialize (Hm s Hs). unfold mbind, st, outs in *.
  destruct (m s) as [[s1 o1] [a| | |]]; auto. simpl in *. destruct Hm as [H1 H2].
  specialize (Hf a s1 H1). destruct (f a s1) as [[s2 o2] r2]. simpl in *.
  split; [tauto|]. apply Forall_app. tauto.
Qed.
(** binding [mget]: the value is the state *)
Lemma hoare_get_bind {B} (I : S -> Prop) (P : O -> Prop) (f : S -> M S O B) :
  (forall s, I s -> I (st (f s s)) /\ Forall P (outs (f s s))) -> hoare I P (mbind mget f).
Proof.
  intros H s Hs. specialize (H s Hs). unfold mbind, mget, st, outs in *.
  destruct (f s s) as [[s2 o2] r2]. exact H.
Qed.

(** ** Runs *)
Context {E : Type} (step : E -> M S O unit).
Lemma run_app s a : forall b,
  run step s (a ++ b) =
  match run step s a with
  | Some (s1, o1) => match run step s1 b with Some (s2, o2) => Some (s2, o1 ++ o2) | None => None end
  | None => None
  end.
Proof.
  revert s. induction a as [|x a IH]; intros s b; simpl.
  - destruct (run step s b) as [[s2 o2]|]; reflexivity.
  - destruct (step x s) as [[s1 o1] [|e|u|]]; auto; rewrite IH;
      destruct (run step s1 a) as [[s2 o2]|]; auto; destruct (run step s2 b) as [[s3 o3]|]; auto;
      rewrite app_assoc; reflexivity.
Qed.
Lemma run_inv (I : S -> Prop) :
  (forall x s, I s -> I (st (step x s))) ->
  forall ops s s' o, I s -> run step s ops = Some (s', o) -> I s'.
Proof.
  intros H. induction ops as [|x ops IH]; intros s s' o Hs; simpl.
  - intros [= <- <-]. auto.
  - specialize (H x s Hs). unfold st in H. destruct (step x s) as [[s1 o1] [|e|u|]]; try discriminate;
      simpl in H; destruct (run step s1 ops) as [[s2 o2]|] eqn:R; try discriminate;
      intros [= <- <-]; eauto.
Qed.
Lemma run_rel (R : S -> S -> Prop) :
  (forall s, R s s) -> (forall a b c, R a b -> R b c -> R a c) ->
  (forall x, keeps R (step x)) ->
  forall ops s s' o, run step s ops = Some (s', o) -> R s s'.
Proof.
  intros Hr Ht H. induction ops as [|x ops IH]; intros s s' o; simpl.
  - intros [= <- <-]. auto.
  - specialize (H x s). unfold st in H. destruct (step x s) as [[s1 o1] [|e|u|]]; try discriminate;
      simpl in H; destruct (run step s1 ops) as [[s2 o2]|] eqn:Q; try discriminate;
      intros [= <- <-]; eauto.
Qed.
Lemma run_snoc s ops x s' o :
  run step s (ops ++ [x]) = Some (s', o) ->
  exists s1 o1 o2, run step s ops = Some (s1, o1) /\ st (step x s1) = s' /\ outs (step x s1) = o2 /\
    o = o1 ++ o2 /\ ((exists u, res (step x s1) = Ok u) \/ exists e, res (step x s1) = Throw e).
Proof.
  rewrite run_app. destruct (run step s ops) as [[s1 o1]|]; [|discriminate]. simpl.
  destruct (step x s1) as [[s2 o2] [u|e|u|]] eqn:Q; try discriminate;
    intros [= <- <-]; rewrite app_nil_r; exists s1, o1, o2; unfold st, outs, res; rewrite Q; simpl;
    repeat split; eauto.
Qed.
End Mon.

(** running a handler *)
Lemma mbind_get {S O A} (f : S -> M S O A) s : mbind mget f s = f s s.
Proof. unfold mbind, mget. destruct (f s s) as [[x y] z]. reflexivity. Qed.
Lemma mbind_ret {S O A B} (a : A) (f : A -> M S O B) s : mbind (mret a) f s = f a s.
Proof. unfold mbind, mret. destruct (f a s) as [[x y] z]. reflexivity. Qed.
Lemma mbind_mod {S O A} g (f : unit -> M S O A) s : mbind (mmod g) f s = f tt (g s).
Proof. unfold mbind, mmod. destruct (f tt (g s)) as [[x y] z]. reflexivity. Qed.
Lemma mbind_lift {S O A B} r (f : A -> M S O B) s : mbind (mlift r) f s =
  match r with Ok a => f a s | Throw e => (s, [], Throw e) | UB u => (s, [], UB u) | Hang => (s, [], Hang) end.
Proof. unfold mbind, mlift. destruct r; auto. destruct (f a s) as [[x y] z]. reflexivity. Qed.
Lemma mbind_emit {S O A} l (f : unit -> M S O A) s : mbind (memit l) f s =
  (st (f tt s), l ++ outs (f tt s), res (f tt s)).
Proof. unfold mbind, memit, st, outs, res. destruct (f tt s) as [[x y] z]. reflexivity. Qed.
Lemma mbind_assoc {S O A B C} (m : M S O A) (f : A -> M S O B) (g : B -> M S O C) s :
  mbind (mbind m f) g s = mbind m (fun x => mbind (f x) g) s.
Proof.
  unfold mbind. destruct (m s) as [[s1 o1] [a|e|u|]]; auto. destruct (f a s1) as [[s2 o2] [b|e|u|]]; auto.
  destruct (g b s2) as [[s3 o3] r]. rewrite app_assoc. reflexivity.
Qed.
Ltac mstep := repeat first [rewrite mbind_get | rewrite mbind_ret | rewrite mbind_mod | rewrite mbind_lift].
