(** Properties C01, C02, C03 of the Bloom filter. *)
From Coq Require Import NArith List Permutation.
From Verif.Base Require Import Words.
From Verif.Filter Require Import MurmurModel BloomModel BloomSpec BloomProofs.
Import ListNotations.
Local Open Scope N_scope.

(** C01. Whatever the (parallel) history of insertions and clears and whatever
    the interleaving of the membership test, an element inserted since the last
    Clear is reported as contained. *)
Theorem C01_bloom_no_false_negative :
  forall (H : N -> list N -> N) big_salt max_num ssp raw_bits os f x b,
  salts_total big_salt -> 1 <= raw_bits <= 2 ^ 32 - 8 ->
  bhist_exec H (bloom_new big_salt max_num ssp raw_bits) os f ->
  In x (live_elements os) -> PlainContain H f x b -> b = true.
Proof.
  exact (fun H bs n ssp raw os f x b T R => no_false_negative H bs n ssp raw os f x b T (round8_nonzero raw R)).
Qed.
Print Assumptions C01_bloom_no_false_negative.

(** C01. No history runs into undefined behaviour, and every interleaving of a
    parallel insertion produces one and the same filter. *)
Theorem C01_bloom_history_total :
  forall (H : N -> list N -> N) big_salt max_num ssp raw_bits os,
  salts_total big_salt -> 1 <= raw_bits <= 2 ^ 32 - 8 ->
  exists f, bhist_exec H (bloom_new big_salt max_num ssp raw_bits) os f.
Proof. exact history_total. Qed.
Print Assumptions C01_bloom_history_total.

Theorem C01_bloom_schedule_independent :
  forall (H : N -> list N -> N) big_salt max_num ssp raw_bits os f xs s1 s2,
  salts_total big_salt -> 1 <= raw_bits <= 2 ^ 32 - 8 ->
  bhist_exec H (bloom_new big_salt max_num ssp raw_bits) os f ->
  Permutation s1 (Insert_steps f xs) -> Permutation s2 (Insert_steps f xs) ->
  exists f', exec_insert_steps H f s1 = Some f' /\ exec_insert_steps H f s2 = Some f'.
Proof. exact schedule_independent. Qed.
Print Assumptions C01_bloom_schedule_independent.

(** C02. Serialising to a buffer (possibly followed by other data) and reading
    back yields exactly the same filter; ObjectSize() bytes are written. *)
Theorem C02_bloom_round_trip :
  forall (H : N -> list N -> N) big_salt max_num ssp raw_bits os f rest,
  salts_total big_salt -> 1 <= raw_bits <= 2 ^ 32 - 8 -> max_num < 2 ^ 64 ->
  bhist_exec H (bloom_new big_salt max_num ssp raw_bits) os f ->
  bloom_ReadObject big_salt (bloom_WriteObject f ++ rest) = Some f /\
  N.of_nat (length (bloom_WriteObject f)) = bloom_ObjectSize f.
Proof.
  exact (fun H bs n ssp raw os f rest T R => round_trip H bs n ssp raw os f rest T (round8_nonzero raw R)).
Qed.
Print Assumptions C02_bloom_round_trip.

(** C03. The answer is exactly "every probe position of x is a probe position
    of some live element". *)
Theorem C03_bloom_contain_exact :
  forall (H : N -> list N -> N) big_salt max_num ssp raw_bits os f x b,
  salts_total big_salt -> 1 <= raw_bits <= 2 ^ 32 - 8 ->
  bhist_exec H (bloom_new big_salt max_num ssp raw_bits) os f ->
  PlainContain H f x b ->
  (b = true <-> forall i, (i < N.to_nat (bf_hash_num f))%nat ->
     exists y j, In y (live_elements os) /\ (j < N.to_nat (bf_hash_num f))%nat /\
       H (nth j (bf_vec_salt f) 0) y mod bf_table_size f =
       H (nth i (bf_vec_salt f) 0) x mod bf_table_size f).
Proof.
  exact (fun H bs n ssp raw os f x b T R => contain_exact H bs n ssp raw os f x b T (round8_nonzero raw R)).
Qed.
Print Assumptions C03_bloom_contain_exact.

(** C03. The membership test always has exactly one possible answer. *)
Theorem C03_bloom_contain_deterministic :
  forall (H : N -> list N -> N) big_salt max_num ssp raw_bits os f x,
  salts_total big_salt -> 1 <= raw_bits <= 2 ^ 32 - 8 ->
  bhist_exec H (bloom_new big_salt max_num ssp raw_bits) os f ->
  exists b, PlainContain H f x b /\ forall b', PlainContain H f x b' -> b' = b.
Proof. exact contain_total. Qed.
Print Assumptions C03_bloom_contain_deterministic.

(** C03. The element counter is the number of live insertions (modulo 2^64). *)
Theorem C03_bloom_count_exact :
  forall (H : N -> list N -> N) big_salt max_num ssp raw_bits os f,
  salts_total big_salt -> 1 <= raw_bits <= 2 ^ 32 - 8 ->
  bhist_exec H (bloom_new big_salt max_num ssp raw_bits) os f ->
  bf_inserted_element_num f = N.of_nat (length (live_elements os)) mod 2 ^ 64.
Proof. exact count_exact. Qed.
Print Assumptions C03_bloom_count_exact.

(** C03. The salts of the hash functions are pairwise distinct. *)
Theorem C03_bloom_salts_distinct : forall big_salt hash_num, hash_num <= 128 ->
  NoDup (GenUniqueSaltVector big_salt hash_num bloom_seed).
Proof. exact salts_distinct. Qed.
Print Assumptions C03_bloom_salts_distinct.

(** Finding: a filter constructed for zero elements has an empty table and its
    first insertion divides by zero. *)
Theorem C01_bloom_zero_capacity_refuted :
  forall (H : N -> list N -> N) big_salt max_num ssp x, 0 < wrap32 ssp ->
  exec_insert_steps H (bloom_new big_salt max_num ssp 0)
    (Insert_steps (bloom_new big_salt max_num ssp 0) [x]) = None.
Proof. exact zero_table_ub. Qed.
Print Assumptions C01_bloom_zero_capacity_refuted.

(** Non-vacuity: a concrete run with the repository's hash, two parallel
    insertions, a clear and another insertion. *)
Definition ex_salt : N -> N -> list N := fun h s => repeat s (N.to_nat h).
Definition ex_f0 := bloom_new ex_salt 4 3 17.
Definition ex_hist := [OpInsert [[1; 2; 3]; [4; 5]]; OpClear; OpInsert [[7; 8; 9; 10; 11; 12; 13; 14; 15]]].

Example ex_salts_total : salts_total ex_salt.
Proof. intros h s _. apply repeat_length. Qed.

(** the second insertion is executed with its atomic steps in reverse order *)
Example ex_history : exists f, bhist_exec LiteMurmurHash ex_f0 ex_hist f /\
  In [7; 8; 9; 10; 11; 12; 13; 14; 15] (live_elements ex_hist) /\
  PlainContain LiteMurmurHash f [7; 8; 9; 10; 11; 12; 13; 14; 15] true /\
  bf_bit_table f <> repeat 0 3.
Proof.
  eexists. split.
  - eapply BH_cons.
    { apply BE_insert with (sched := Insert_steps ex_f0 [[1; 2; 3]; [4; 5]]).
      - apply Permutation_refl.
      - vm_compute. reflexivity. }
    eapply BH_cons; [apply BE_clear|].
    eapply BH_cons; [|apply BH_nil].
    apply BE_insert with (sched := rev (Insert_steps ex_f0 [[7; 8; 9; 10; 11; 12; 13; 14; 15]])).
    + apply Permutation_sym. apply Permutation_rev.
    + vm_compute. reflexivity.
  - split; [simpl; auto|]. split.
    + unfold PlainContain. cbn [bf_hash_num]. change (seq 0 (N.to_nat 3)) with [0; 1; 2]%nat.
      apply (CE_enter _ _ _ [] 0%nat [1; 2]%nat []).
      apply (CE_enter _ _ _ [1]%nat 2%nat [] [0]%nat).
      apply (CE_test _ _ _ [1]%nat [2]%nat 0%nat [] true true); [vm_compute; reflexivity|].
      apply (CE_enter _ _ _ [] 1%nat [] [2]%nat).
      apply (CE_test _ _ _ [] [] 1%nat [2]%nat true true); [vm_compute; reflexivity|].
      apply (CE_test _ _ _ [] [] 2%nat [] true true); [vm_compute; reflexivity|].
      apply CE_done.
    + vm_compute. discriminate.
Qed.
