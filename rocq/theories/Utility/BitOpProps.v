(** Property C09: power-of-two helpers, and the lane test used by the cuckoo filter. *)
From Coq Require Import NArith Bool.
From Verif.Base Require Import Words.
From Verif.Utility Require Import BitOpModel BitOpProofs.
Local Open Scope N_scope.

(** C09. upperpower2 is the least power of two not below its argument. *)
Theorem C09_upperpower2_least :
  forall x, 1 <= x <= 2 ^ 31 ->
  (exists k, upperpower2 x = 2 ^ k) /\ x <= upperpower2 x /\
  (forall k, x <= 2 ^ k -> upperpower2 x <= 2 ^ k).
Proof.
  intros x Hx. destruct (upperpower2_spec x Hx) as (k & E & L & M). rewrite E. repeat split; eauto.
  intros j Hj. apply N.pow_le_mono_r; [discriminate | auto].
Qed.
Print Assumptions C09_upperpower2_least.

(** C09. The remaining 32-bit inputs wrap around to 0. *)
Theorem C09_upperpower2_overflow :
  forall x, x = 0 \/ 2 ^ 31 < x < 2 ^ 32 -> upperpower2 x = 0.
Proof. exact upperpower2_overflow. Qed.
Print Assumptions C09_upperpower2_overflow.

(** C09. IsPowerOfTwo decides powers of two on all 64-bit inputs. *)
Theorem C09_IsPowerOfTwo_exact :
  forall x, x < 2 ^ 64 -> (IsPowerOfTwo x = true <-> exists k, x = 2 ^ k).
Proof. exact IsPowerOfTwo_spec. Qed.
Print Assumptions C09_IsPowerOfTwo_exact.

(** C09. The SWAR test of a 64-bit word against a 16-bit value is exact. *)
Theorem C09_hasvalue16_exact :
  forall a b c d n, a < 2 ^ 16 -> b < 2 ^ 16 -> c < 2 ^ 16 -> d < 2 ^ 16 -> n < 2 ^ 16 ->
  (hasvalue16 (a + 2 ^ 16 * (b + 2 ^ 16 * (c + 2 ^ 16 * d))) n <> 0 <-> a = n \/ b = n \/ c = n \/ d = n).
Proof. exact hasvalue16_lanes. Qed.
Print Assumptions C09_hasvalue16_exact.

(** A concrete instance. *)
Example C09_example : upperpower2 1000 = 1024 /\ upperpower2 (2 ^ 31 + 1) = 0 /\
  IsPowerOfTwo 4096 = true /\ IsPowerOfTwo 4097 = false /\ IsPowerOfTwo 0 = false /\
  hasvalue16 0x0001_0007_FFFF_0000 7 <> 0 /\ hasvalue16 0x0001_0007_FFFF_0000 8 = 0.
Proof. repeat split; try discriminate; vm_compute; congruence. Qed.
