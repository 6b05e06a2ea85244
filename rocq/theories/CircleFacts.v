(** Proofs about comparisons of IBFs that do not end (C13) or overflow (C14). *)
From Coq Require Import List NArith ZArith Bool Lia Arith.
From Verif Require Import Base BaseFacts Murmur MurmurFacts Iblt IbltFacts PeelFacts SpecCircle.
Import ListNotations.

(** ** The loop in terms of passes *)
Definition tab_of (o : outcome peel) : outcome (table * nat) :=
  olet st <- o; Ok (p_tab st, p_erased st).

Lemma peel_entry_tab j st st' : p_tab st = p_tab st' -> p_erased st = p_erased st' ->
  match peel_entry j st, peel_entry j st' with
  | Ok a, Ok b => p_tab a = p_tab b /\ p_erased a = p_erased b
  | Throw x, Throw y => x = y | UB x, UB y => x = y | Hang, Hang => True | _, _ => False
  end.
Proof.
  intros Et Ee. unfold peel_entry. rewrite <- Et. destruct (nth_error (p_tab st) j) as [e|]; [|auto].
  destruct (is_pure e); [|auto]. destruct (iblt_update _ _ _) as [t|x|u|]; cbn [obind]; auto.
  destruct (Z.eqb _ _); cbn [p_tab p_erased]; auto.
Qed.
Lemma peel_pass_tab n : forall j st st', p_tab st = p_tab st' -> p_erased st = p_erased st' ->
  tab_of (peel_pass n j st) = tab_of (peel_pass n j st').
Proof.
  induction n as [|n IH]; intros j st st' Et Ee; cbn [peel_pass].
  - unfold tab_of. cbn [obind]. congruence.
  - pose proof (peel_entry_tab j st st' Et Ee) as H.
    destruct (peel_entry j st) as [a|x|u|], (peel_entry j st') as [b|y|v|]; cbn [obind]; try contradiction;
      try (subst; reflexivity).
    destruct H. apply IH; assumption.
Qed.

Lemma loop_hangs f : forall st, peel_loop f st = Hang <-> passes f (p_tab st) <> None.
Proof.
  induction f as [|f IH]; intros st; cbn [peel_loop passes].
  - split; [discriminate|reflexivity].
  - unfold one_pass.
    pose proof (peel_pass_tab (length (p_tab st)) 0 (mkPeel (p_tab st) (p_pos st) (p_neg st) 0)
                  (mkPeel (p_tab st) [] [] 0) eq_refl eq_refl) as H.
    unfold tab_of in H.
    assert (peel_pass (length (p_tab st)) 0 (mkPeel (p_tab st) (p_pos st) (p_neg st) 0) <> Hang) as NH.
    { assert (forall n j s, peel_pass n j s <> Hang) as G.
      { clear. induction n as [|n IH]; intros j s; cbn [peel_pass]; [discriminate|].
        destruct (peel_entry j s) as [a|x|u|] eqn:E; cbn [obind]; try discriminate; [apply IH|]. exfalso.
        unfold peel_entry in E. destruct (nth_error _ _) as [e|]; [|discriminate]. destruct (is_pure e); [|discriminate].
        destruct (Nat.eq_dec (Nat.div (length (p_tab s)) 3) 0) as [Z0|Hm].
        - rewrite iblt_update_zero in E by exact Z0. discriminate.
        - destruct (iblt_update_outcomes (p_tab s) (- c_count e) (c_sum e) Hm) as [(t' & Eu)|Eu]; rewrite Eu in E; cbn [obind] in E;
            [destruct (Z.eqb _ _)|]; discriminate. }
      apply G. }
    destruct (peel_pass (length (p_tab st)) 0 (mkPeel (p_tab st) (p_pos st) (p_neg st) 0)) as [a|x|u|],
             (peel_pass (length (p_tab st)) 0 (mkPeel (p_tab st) [] [] 0)) as [b|y|v|]; cbn [obind] in *;
      try discriminate; try contradiction; try (split; [discriminate|intros N; exfalso; apply N; reflexivity]).
    injection H as Ht He. rewrite <- He, <- Ht. destruct (p_erased a) as [|k] eqn:Ea; cbn [Nat.eqb].
    + split; [discriminate|]. intros N. exfalso. apply N. reflexivity.
    + apply IH.
Qed.

Lemma passes_add a : forall b t, passes (a + b) t = match passes a t with Some u => passes b u | None => None end.
Proof.
  induction a as [|a IH]; intros b t; cbn [passes Nat.add]; [reflexivity|].
  destruct (one_pass t) as [[t' [|k]]|x|u|]; auto.
Qed.
Lemma passes_below a b t : a <= b -> passes b t <> None -> passes a t <> None.
Proof.
  intros H N E. replace b with (a + (b - a)) in N by lia. rewrite passes_add, E in N. apply N. reflexivity.
Qed.

(** a table that comes back comes back for ever *)
Lemma circle_for_ever i j t u : i < j -> passes i t = Some u -> passes j t = Some u -> forall f, passes f t <> None.
Proof.
  intros Hij Ei Ej f. set (d := j - i).
  assert (passes d u = Some u) as Ed.
  { replace j with (i + d) in Ej by (unfold d; lia). rewrite passes_add, Ei in Ej. exact Ej. }
  assert (forall k, passes (k * d) u = Some u) as Ek.
  { induction k as [|k IH]; [reflexivity|]. cbn [Nat.mul]. rewrite passes_add, Ed. exact IH. }
  apply (passes_below f (i + f * d)).
  - assert (1 <= d) by (unfold d; lia). nia.
  - rewrite passes_add, Ei, Ek. discriminate.
Qed.

(** ** There are finitely many tables *)
Lemma finite_cells (b : N) : exists C, forall c,
  (- Z.of_N b <= c_count c <= Z.of_N b)%Z -> (c_sum c < b)%N -> (c_check c < b)%N -> In c C.
Proof.
  set (ns := map N.of_nat (seq 0 (N.to_nat b))).
  set (zs := map (fun i => (Z.of_nat i - Z.of_N b)%Z) (seq 0 (S (2 * N.to_nat b)))).
  exists (flat_map (fun z => flat_map (fun x => map (fun y => mkCell z x y) ns) ns) zs).
  intros [z x y]. cbn [c_count c_sum c_check]. intros Hz Hx Hy.
  assert (forall n, (n < b)%N -> In n ns) as Hn.
  { intros n H. apply in_map_iff. exists (N.to_nat n). split; [lia|]. apply in_seq. lia. }
  apply in_flat_map. exists z. split.
  - apply in_map_iff. exists (Z.to_nat (z + Z.of_N b)). split; [lia|]. apply in_seq. lia.
  - apply in_flat_map. exists x. split; [auto|]. apply in_map_iff. exists y. auto.
Qed.
Lemma finite_tables (C : list cell) m : exists L, forall t, length t = m -> Forall (fun c => In c C) t -> In t L.
Proof.
  induction m as [|m (L & H)].
  - exists [[]]. intros [|c t] Hl _; [left; reflexivity|discriminate].
  - exists (flat_map (fun c => map (cons c) L) C). intros [|c t] Hl Hf; [discriminate|].
    inversion Hf; subst. apply in_flat_map. exists c. split; [assumption|]. apply in_map. apply H; [|assumption].
    injection Hl as Hl. exact Hl.
Qed.
Lemma wf_tables m : exists L, forall t, length t = m -> Forall wf_cell t -> In t L.
Proof.
  destruct (finite_cells two32) as (C & HC). destruct (finite_tables C m) as (L & HL).
  exists L. intros t Hl Hw. apply HL; [exact Hl|]. revert Hw. apply Forall_impl. intros c (H1 & H2 & H3).
  apply HC; auto. apply in_i32_iff in H1. unfold i32_min, i32_max, two32 in *. lia.
Qed.

(** ** Passes keep the fields within 32 bits *)
Lemma wf_cells_iff t : Forall wf_cell t <-> wf_table t /\ forall j, (c_sum (cell_at t j) < two32)%N /\ (c_check (cell_at t j) < two32)%N.
Proof.
  split.
  - intros H. rewrite Forall_forall in H.
    assert (forall j, wf_cell (cell_at t j)) as G.
    { intros j. destruct (Nat.lt_ge_cases j (length t)) as [Hj|Hj]; [apply H, nth_In, Hj|].
      rewrite cell_at_out by exact Hj. split; [reflexivity|]. split; reflexivity. }
    split; intros j; apply G.
  - intros [Hw Hs]. apply Forall_forall. intros c Hc. destruct (In_nth _ _ cell0 Hc) as (j & Hj & <-).
    split; [apply Hw|]. apply Hs.
Qed.
Lemma update_wf_cells t pm k t' : (k < two32)%N -> Forall wf_cell t -> iblt_update t pm k = Ok t' -> Forall wf_cell t'.
Proof.
  intros Hk Hw E. apply wf_cells_iff in Hw as [Hw Hs]. apply wf_cells_iff. split; [eapply iblt_update_wf; eauto|].
  apply iblt_update_ok in E as (_ & _ & C). intros j. rewrite C. destruct (Hs j) as [A B]. unfold cadd, kcell.
  destruct (hit (length t) k j); cbn [c_sum c_check cell0];
    [split; apply xor32_lt; auto; apply hash32_lt; reflexivity|rewrite !N.lxor_0_r; auto].
Qed.
Lemma one_pass_wf t t' k : Forall wf_cell t -> one_pass t = Ok (t', k) -> Forall wf_cell t' /\ length t' = length t.
Proof.
  intros Hw E. unfold one_pass in E. apply obind_ok in E as (st & E & F). injection F as <- _.
  split; [|apply peel_pass_length in E; exact E].
  apply (peel_pass_ind (fun s => Forall wf_cell (p_tab s))) in E; [exact E| |exact Hw].
  intros j s s' Hs H. apply peel_entry_cases in H as (_ & [[-> _]|(z & n & _ & -> & Hj & _ & Hu & _)]); [exact Hs|].
  refine (update_wf_cells _ _ _ _ _ Hs Hu). apply wf_cells_iff in Hs as [_ Hs]. apply Hs.
Qed.
Lemma passes_wf n : forall t u, Forall wf_cell t -> passes n t = Some u -> Forall wf_cell u /\ length u = length t.
Proof.
  induction n as [|n IH]; intros t u Hw E; cbn [passes] in E.
  - injection E as <-. auto.
  - destruct (one_pass t) as [[t' [|k]]|x|v|] eqn:F; try discriminate.
    apply one_pass_wf in F as [Hw' L]; [|exact Hw]. apply IH in E as [A B]; [|exact Hw']. split; [exact A|congruence].
Qed.

(** ** So a loop that does not end runs in circles *)
Lemma repeats {A} (dec : forall x y : A, {x = y} + {x <> y}) (f : nat -> A) n :
  NoDup (map f (seq 0 n)) \/ exists i j, i < j < n /\ f i = f j.
Proof.
  induction n as [|n IH].
  - left. constructor.
  - destruct IH as [H|(i & j & Hij & E)]; [|right; exists i, j; split; [lia|exact E]].
    destruct (in_dec dec (f n) (map f (seq 0 n))) as [Hin|Hout].
    + right. apply in_map_iff in Hin as (i & E & Hi). apply in_seq in Hi. exists i, n. split; [lia|exact E].
    + left. rewrite seq_S, map_app. cbn [map Nat.add].
      apply (NoDup_Add (a := f n) (l := map f (seq 0 n))).
      * rewrite <- (app_nil_r (map f (seq 0 n))) at 1. apply Add_app.
      * split; assumption.
Qed.
Definition cell_dec (a b : cell) : {a = b} + {a <> b}.
Proof. decide equality; [apply N.eq_dec|apply N.eq_dec|apply Z.eq_dec]. Defined.

Lemma for_ever_circles t : Forall wf_cell t -> (forall f, passes f t <> None) ->
  exists i j u, i < j /\ passes i t = Some u /\ passes j t = Some u.
Proof.
  intros Hw H. destruct (wf_tables (length t)) as (L & HL).
  set (f := fun n => match passes n t with Some u => u | None => [] end).
  assert (forall n, passes n t = Some (f n)) as Ef.
  { intros n. unfold f. specialize (H n). destruct (passes n t); [reflexivity|congruence]. }
  destruct (repeats (list_eq_dec cell_dec) f (S (length L))) as [Nd|(i & j & Hij & E)].
  - exfalso. assert (length (map f (seq 0 (S (length L)))) <= length L) as Hl.
    { apply NoDup_incl_length; [exact Nd|]. intros u Hu. apply in_map_iff in Hu as (n & <- & _).
      destruct (passes_wf n t (f n) Hw (Ef n)). apply HL; assumption. }
    rewrite map_length, seq_length in Hl. lia.
  - exists i, j, (f i). split; [lia|]. split; [apply Ef|rewrite E; apply Ef].
Qed.

(** ** Overflow *)
Definition within (B : Z) (t : table) : Prop := forall j, (Z.abs (c_count (cell_at t j)) <= B)%Z.
Lemma peel_entry_within B j st : 3 <= length (p_tab st) -> within B (p_tab st) -> (B + 1 <= i32_max)%Z ->
  exists st', peel_entry j st = Ok st' /\ within (B + 1) (p_tab st') /\ length (p_tab st') = length (p_tab st).
Proof.
  intros L3 Hw HB. unfold peel_entry. destruct (nth_error (p_tab st) j) as [e|] eqn:En.
  2:{ exists st. split; [reflexivity|]. split; [|reflexivity]. intros k. specialize (Hw k). lia. }
  destruct (is_pure e) eqn:Ep.
  2:{ exists st. split; [reflexivity|]. split; [|reflexivity]. intros k. specialize (Hw k). lia. }
  apply is_pure_iff in Ep as (Hc & _).
  assert (Nat.div (length (p_tab st)) 3 <> 0) as Hm by (intros E; apply Nat.div_small_iff in E; lia).
  destruct (iblt_update_total (p_tab st) (- c_count e) (c_sum e) Hm) as (t & Eu).
  { intros k _. apply in_i32_iff. specialize (Hw k). unfold i32_min, i32_max in *. lia. }
  rewrite Eu. cbn [obind]. eexists. split; [reflexivity|]. apply iblt_update_ok in Eu as (_ & Lt & C).
  assert (within (B + 1) t) as W.
  { intros k. rewrite C. unfold cadd, kcell. specialize (Hw k). destruct (hit _ _ k); cbn [c_count cell0]; lia. }
  destruct (Z.eqb (c_count e) 1); cbn [p_tab]; auto.
Qed.
Lemma peel_pass_within n : forall B j st, 3 <= length (p_tab st) -> within B (p_tab st) -> (B + Z.of_nat n <= i32_max)%Z ->
  exists st', peel_pass n j st = Ok st' /\ within (B + Z.of_nat n) (p_tab st') /\ length (p_tab st') = length (p_tab st).
Proof.
  induction n as [|n IH]; intros B j st L3 Hw HB; cbn [peel_pass].
  - exists st. rewrite Z.add_0_r. auto.
  - destruct (peel_entry_within B j st L3 Hw) as (s1 & E1 & W1 & L1); [lia|]. rewrite E1. cbn [obind].
    destruct (IH (B + 1)%Z (S j) s1) as (s2 & E2 & W2 & L2); [lia|exact W1|lia|].
    exists s2. split; [exact E2|]. split; [|congruence]. intros k. specialize (W2 k). lia.
Qed.
Lemma peel_loop_within f : forall B st, 3 <= length (p_tab st) -> within B (p_tab st) ->
  (B + Z.of_nat (f * length (p_tab st)) <= i32_max)%Z ->
  peel_loop f st = Hang \/ exists st', peel_loop f st = Ok st'.
Proof.
  induction f as [|f IH]; intros B st L3 Hw HB; cbn [peel_loop]; [left; reflexivity|].
  destruct (peel_pass_within (length (p_tab st)) B 0 (mkPeel (p_tab st) (p_pos st) (p_neg st) 0) L3 Hw) as (s1 & E1 & W1 & L1).
  { lia. }
  cbn [p_tab] in L1. rewrite E1. cbn [obind]. destruct (Nat.eqb (p_erased s1) 0); [right; eauto|].
  apply (IH (B + Z.of_nat (length (p_tab st)))%Z); [lia|exact W1|]. rewrite L1. lia.
Qed.
