(** Property theorems about the printed forms of IBFs, filters and sync content (C119). *)
From Coq Require Import List NArith ZArith Bool Lia Ascii String.
From Coq.Strings Require Import Byte.
From Verif Require Import Base BaseFacts Murmur MurmurFacts Iblt IbltFacts SpecIblt HonestFacts Tlv Bloom Print PrintFacts.
Import ListNotations.

(** * C119 *)
(** two tables are printed alike exactly if they have the same counts, the same key sums, and their
    check fields match the key sums (or the entry is empty) in the same entries *)
Theorem C119_printed_ibf : forall t t',
  print_iblt t = print_iblt t' <->
  Forall2 (fun c c' => c_count c = c_count c' /\ c_sum c = c_sum c' /\
    (c = mkCell 0 0 0 \/ c_check c = hash32 11 (c_sum c) <-> c' = mkCell 0 0 0 \/ c_check c' = hash32 11 (c_sum c'))) t t'.
Proof.
  assert (forall c, check_matches c = true <-> c = mkCell 0 0 0 \/ c_check c = hash32 11 (c_sum c)) as M.
  { intros c. unfold check_matches. rewrite orb_true_iff, N.eqb_eq. unfold is_empty.
    rewrite !andb_true_iff, Z.eqb_eq, !N.eqb_eq. destruct c as [a b d]. cbn [c_count c_sum c_check].
    change N_HASHCHECK with 11%N. split.
    - intros [[[-> ->] ->]|<-]; auto.
    - intros [[= -> -> ->]| ->]; auto. }
  assert (forall c c', check_matches c = check_matches c' <->
    (c = mkCell 0 0 0 \/ c_check c = hash32 11 (c_sum c) <-> c' = mkCell 0 0 0 \/ c_check c' = hash32 11 (c_sum c'))) as E.
  { intros c c'. rewrite <- !M. destruct (check_matches c), (check_matches c'); intuition congruence. }
  intros t t'. split.
  - intros H. apply print_iblt_inj in H. induction H as [|c c' t t' (A & B & C) _ IH]; constructor; [|exact IH].
    split; [exact A|]. split; [exact B|]. apply E, C.
  - intros H. apply print_iblt_ext. induction H as [|c c' t t' (A & B & C) _ IH]; constructor; [|exact IH].
    split; [exact A|]. split; [exact B|]. apply E, C.
Qed.
Print Assumptions C119_printed_ibf.

(** the last column of an IBF that holds a list of keys says "true" for every entry that holds no key
    or one key; "false" is said only of an entry that holds at least two *)
Theorem C119_collisions_are_visible : forall n ks t c,
  IbfOf n ks t -> In c t ->
  ((c_count c <= 1)%Z -> print_cell c = dec_Z (c_count c) ++ lit " " ++ dec_N (c_sum c) ++ lit " true" ++ [newline]) /\
  (print_cell c = dec_Z (c_count c) ++ lit " " ++ dec_N (c_sum c) ++ lit " false" ++ [newline] -> (2 <= c_count c)%Z).
Proof.
  intros n ks t c H Hc. apply IbfOf_cells in H as (_ & _ & _ & C).
  destruct (In_nth _ _ cell0 Hc) as (j & Hj & E). change (nth j t cell0) with (cell_at t j) in E. rewrite C in E.
  assert ((c_count c <= 1)%Z -> check_matches c = true) as M.
  { subst c. rewrite csum_as_group. cbn [c_count]. rewrite filter_pos1, sum_sign_pos.
    destruct (filter (fun k => hit (n_entries n) k j) ks) as [|k [|k' r]]; intros Hk.
    - reflexivity.
    - unfold check_matches. cbn. rewrite !N.lxor_0_r, N.eqb_refl, ?orb_true_r. reflexivity.
    - exfalso. cbn [Datatypes.length] in Hk. lia. }
  split.
  - intros Hk. unfold print_cell. rewrite (M Hk). reflexivity.
  - intros P. destruct (Z.le_gt_cases (c_count c) 1) as [Hk|Hk]; [|lia]. exfalso.
    unfold print_cell in P. rewrite (M Hk) in P. apply app_inv_head in P. cbn [lit list_ascii_of_string app] in P.
    injection P as P. apply app_inv_head in P. discriminate.
Qed.
Print Assumptions C119_collisions_are_visible.

(** two filters are printed alike exactly if they are equal in the sense of operator==, that is if
    their bit tables are the same *)
Theorem C119_printed_filter : forall a b,
  (print_bloom a = print_bloom b <-> bloom_eq a b = true) /\ (bloom_eq a b = true <-> b_tab a = b_tab b).
Proof.
  intros a b. assert (bloom_eq a b = true <-> b_tab a = b_tab b) as E.
  { unfold bloom_eq. destruct (list_eq_dec _ _ _) as [e|e]; intuition congruence. }
  split; [|exact E]. rewrite E. unfold print_bloom. split; [apply print_bytes_inj|intros ->; reflexivity].
Qed.
Print Assumptions C119_printed_filter.

(** sync content: if names are printed without commas, never as nothing, and different names
    differently, then different lists of names are printed differently *)
Theorem C119_printed_content : forall uri l l',
  (forall n, ~ In ","%char (uri n)) -> (forall n, uri n <> []) -> (forall n n', uri n = uri n' -> n = n') ->
  print_state uri l = print_state uri l' -> l = l'.
Proof.
  intros uri l l' Hc Hn Hi E. unfold print_state in E. injection E as E. apply app_inv_tail in E.
  apply join_inj in E.
  - revert l' E. induction l as [|n l IH]; intros [|n' l'] E; cbn [map] in E; try discriminate; [reflexivity|].
    injection E as E1 E. f_equal; auto.
  - apply Forall_forall. intros x Hx. apply in_map_iff in Hx as (n & <- & _). auto.
  - apply Forall_forall. intros x Hx. apply in_map_iff in Hx as (n & <- & _). auto.
Qed.
Print Assumptions C119_printed_content.

(** a way to print names that fulfils the conditions: "/", then type, "=", value in hexadecimal and
    "/" for every component *)
Definition uri_example (n : name) : chars :=
  "/"%char :: flat_map (fun c => dec_N (ctype c) ++ "="%char :: flat_map print_byte (cval c) ++ ["/"%char]) n.
Lemma uint_digits d x : In x (lit (DecimalString.NilEmpty.string_of_uint d)) -> (48 <= N_of_ascii x <= 57)%N.
Proof. unfold lit. induction d; cbn; intros H; try tauto; destruct H as [<-|H]; auto; cbn; lia. Qed.
Lemma hex_digits l x : In x (flat_map print_byte l) -> (48 <= N_of_ascii x <= 57 \/ 97 <= N_of_ascii x <= 102)%N.
Proof.
  assert (forall n, (n < 16)%N -> (48 <= N_of_ascii (hex_digit n) <= 57 \/ 97 <= N_of_ascii (hex_digit n) <= 102)%N) as D.
  { intros n Hn. unfold hex_digit. rewrite N_ascii_embedding by (destruct (N.ltb_spec n 10); lia).
    destruct (N.ltb_spec n 10); lia. }
  intros H. apply in_flat_map in H as (b & _ & H). pose proof (b2n_lt b).
  destruct H as [<-|[<-|[]]]; apply D; [apply N.div_lt_upper_bound; lia|apply N.mod_lt; discriminate].
Qed.
Lemma uri_example_ok :
  (forall n, ~ In ","%char (uri_example n)) /\ (forall n, uri_example n <> []) /\
  (forall n n', uri_example n = uri_example n' -> n = n').
Proof.
  split; [|split].
  - intros n [H|H]; [discriminate|]. apply in_flat_map in H as (c & _ & H).
    apply in_app_or in H as [H|H]; [apply uint_digits in H; cbn in H; lia|].
    destruct H as [H|H]; [discriminate|]. apply in_app_or in H as [H|H]; [apply hex_digits in H; cbn in H; lia|].
    destruct H as [H|[]]; discriminate.
  - discriminate.
  - intros n n' E. unfold uri_example in E. injection E as E. revert n' E.
    induction n as [|[ty v] n IH]; intros [|[ty' v'] n'] E; cbn [flat_map ctype cval] in E.
    + reflexivity.
    + rewrite <- app_assoc in E. destruct (dec_N ty'); discriminate.
    + rewrite <- app_assoc in E. destruct (dec_N ty); discriminate.
    + rewrite <- !app_assoc in E. cbn [app] in E.
      apply cut in E as [E1 E]; [|intros H; apply uint_digits in H; cbn in H; lia..].
      rewrite <- !app_assoc in E. cbn [app] in E.
      apply cut in E as [E2 E]; [|intros H; apply hex_digits in H; cbn in H; lia..].
      apply dec_N_inj in E1. apply print_bytes_inj in E2. apply IH in E. congruence.
Qed.

(** an IBF with one key, one with two keys in the same entries, a filter, and lists of names *)
Definition t1_119 : table := Eval vm_compute in match insert_all (iblt_new 1) [7%N] with Ok t => t | _ => [] end.
Definition t2_119 : table := Eval vm_compute in match insert_all (iblt_new 1) [7%N; 8%N] with Ok t => t | _ => [] end.
Example C119_example :
  IbfOf 1 [7%N] t1_119 /\ print_iblt t1_119 =
     lit "count keySum keyCheckMatch" ++ newline :: lit "1 7 true" ++ newline :: lit "1 7 true" ++ newline :: lit "1 7 true" ++ [newline] /\
  IbfOf 1 [7%N; 8%N] t2_119 /\ print_iblt t2_119 =
     lit "count keySum keyCheckMatch" ++ newline :: lit "2 15 false" ++ newline :: lit "2 15 false" ++ newline :: lit "2 15 false" ++ [newline] /\
  print_cell (mkCell (-3) 4294967295 0) = lit "-3 4294967295 false" ++ [newline] /\
  print_bloom (mkBloom [1%N] [x00; x1f; xff] 24 1 (d_of_N 1)) = lit "001fff" /\
  print_state uri_example [] = lit "[]" /\
  print_state uri_example [[mkComp 8 [x61]]; [mkComp 8 [x62]; mkComp 54 [x63]]] = lit "[/8=61/, /8=62/54=63/]".
Proof.
  repeat apply conj; vm_compute; reflexivity.
Qed.
