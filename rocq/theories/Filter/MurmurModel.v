(** LiteMurmurHash, the 32-bit keyed hash used by both filters. *)
From Coq Require Import NArith List.
From Verif.Base Require Import Words.
Import ListNotations.
Local Open Scope N_scope.

(* utility/murmurhash3.hpp:9  fixed_salt32, the salt used by the cuckoo filter *)
Definition fixed_salt32 : N := 0xAAAA.

(* utility/murmurhash3.hpp:356  one iteration of the 8-byte loop *)
Definition lm_mix8 (digest a b : N) : N :=
  N.lxor digest
    (N.lxor (N.lxor (shl32 digest 7) (mul32 a (shr32 digest 3)))
            (not32 (add32 (shl32 digest 11) (N.lxor b (shr32 digest 5))))).

(* utility/murmurhash3.hpp:363,371  even branch: digest ^= ~((digest<<11) + (c ^ (digest>>5))) *)
Definition lm_even (digest c : N) : N :=
  N.lxor digest (not32 (add32 (shl32 digest 11) (N.lxor c (shr32 digest 5)))).

(* utility/murmurhash3.hpp:362,370  odd branch: digest ^= (digest<<7) ^ d*(digest>>3) *)
Definition lm_odd (digest d : N) : N :=
  N.lxor digest (N.lxor (shl32 digest 7) (mul32 d (shr32 digest 3))).

(* utility/murmurhash3.hpp:376-380  last single byte *)
Definition lm_tail1 (digest loop : N) (l : list N) : N :=
  match l with
  | [e] => add32 digest (add32 (N.lxor e (mul32 digest 0xA5A5A5A5)) loop)
  | _ => digest
  end.

(* utility/murmurhash3.hpp:368-374  two-byte step *)
Definition lm_tail2 (digest loop : N) (l : list N) : N :=
  match l with
  | d0 :: d1 :: r =>
      let d := le_val [d0; d1] in
      let digest' := if N.odd loop then lm_odd digest d else lm_even digest d in
      lm_tail1 digest' (loop + 1) r
  | _ => lm_tail1 digest loop l
  end.

(* utility/murmurhash3.hpp:360-366  four-byte step; loop is 0 here, so the odd
   branch (which would read the variable b) is never taken *)
Definition lm_tail4 (digest : N) (l : list N) : N :=
  match l with
  | c0 :: c1 :: c2 :: c3 :: r =>
      lm_tail2 (lm_even digest (le_val [c0; c1; c2; c3])) 1 r
  | _ => lm_tail2 digest 0 l
  end.

(* utility/murmurhash3.hpp:353-358  main loop over 8-byte chunks *)
Fixpoint lm_loop (digest : N) (l : list N) : N :=
  match l with
  | b0 :: b1 :: b2 :: b3 :: b4 :: b5 :: b6 :: b7 :: r =>
      lm_loop (lm_mix8 digest (le_val [b0; b1; b2; b3]) (le_val [b4; b5; b6; b7])) r
  | _ => lm_tail4 digest l
  end.

(* utility/murmurhash3.hpp:342-383 *)
Definition LiteMurmurHash (salt : N) (input : list N) : N := lm_loop salt input.
