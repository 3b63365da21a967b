(** FIPS-197 (AES-128), written independently of the instructions used by crypto/aes.hpp. *)
From Coq Require Import Arith NArith List Bool.
Import ListNotations.
Local Open Scope N_scope.

(** ** GF(2^8) with the polynomial x^8 + x^4 + x^3 + x + 1 (section 4.2) *)
Definition pmod_step (x : N) (i : N) : N := if N.testbit x (8 + i) then N.lxor x (N.shiftl 283 i) else x.
(** carry-less product, then reduction from the top *)
Definition clmul8 (a b : N) : N :=
  fold_left (fun acc i => if N.testbit b i then N.lxor acc (N.shiftl a i) else acc) [0;1;2;3;4;5;6;7] 0.
Definition gf_mul (a b : N) : N := fold_left pmod_step [7;6;5;4;3;2;1;0] (clmul8 a b).

(** section 5.1.1: the S-box is the affine map applied to the multiplicative inverse *)
Definition affine_bit (b : N) (i : N) : bool :=
  fold_left xorb (map (fun k => N.testbit b ((i + k) mod 8)) [0; 4; 5; 6; 7]) (N.testbit 99 i).
Definition is_sbox_value (b s : N) : Prop :=
  exists c, c < 256 /\ (b = 0 /\ c = 0 \/ gf_mul b c = 1) /\ forall i, i < 8 -> N.testbit s i = affine_bit c i.

(** ** Cipher on a state s[r + 4c] (section 5.1), for a given S-box *)
Section Cipher.
Variable S : N -> N.
Definition at_ (s : list N) (r c : nat) : N := nth (r + 4 * c) s 0.
Definition build (f : nat -> nat -> N) : list N := flat_map (fun c => map (fun r => f r c) (seq 0 4)) (seq 0 4).
Definition spec_SubBytes (s : list N) : list N := build (fun r c => S (at_ s r c)).
Definition spec_ShiftRows (s : list N) : list N := build (fun r c => at_ s r ((c + r) mod 4)).
Definition spec_MixColumns (s : list N) : list N :=
  build (fun r c => N.lxor (N.lxor (gf_mul 2 (at_ s r c)) (gf_mul 3 (at_ s ((r + 1) mod 4) c)))
                           (N.lxor (at_ s ((r + 2) mod 4) c) (at_ s ((r + 3) mod 4) c))).
Definition spec_AddRoundKey (s k : list N) : list N := build (fun r c => N.lxor (at_ s r c) (at_ k r c)).

(** section 5.2, Nk = 4: words of 4 bytes *)
Definition xorw (a b : list N) : list N := map (fun i => N.lxor (nth i a 0) (nth i b 0)) (seq 0 4).
Definition spec_SubWord (w : list N) : list N := map S w.
Definition spec_RotWord (w : list N) : list N := [nth 1 w 0; nth 2 w 0; nth 3 w 0; nth 0 w 0].
Definition Rcon (i : nat) : list N := [nth i [0; 1; 2; 4; 8; 16; 32; 64; 128; 27; 54] 0; 0; 0; 0].
(** the words w[0 .. 4 n + 3], built four at a time *)
Fixpoint spec_words (key : list N) (n : nat) : list (list N) :=
  match n with
  | O => [firstn 4 key; firstn 4 (skipn 4 key); firstn 4 (skipn 8 key); firstn 4 (skipn 12 key)]
  | Datatypes.S m =>
      let w := spec_words key m in
      let p i := nth (4 * m + i) w [] in
      let t := xorw (spec_SubWord (spec_RotWord (p 3%nat))) (Rcon n) in
      let w0 := xorw (p 0%nat) t in
      let w1 := xorw (p 1%nat) w0 in
      let w2 := xorw (p 2%nat) w1 in
      let w3 := xorw (p 3%nat) w2 in
      w ++ [w0; w1; w2; w3]
  end.
Definition spec_round_key (key : list N) (j : nat) : list N :=
  flat_map (fun i => nth (4 * j + i) (spec_words key 10) []) (seq 0 4).

(** section 5.1, Nr = 10 *)
Definition spec_Cipher (key input : list N) : list N :=
  let s := spec_AddRoundKey input (spec_round_key key 0) in
  let s := fold_left (fun s j => spec_AddRoundKey (spec_MixColumns (spec_ShiftRows (spec_SubBytes s))) (spec_round_key key j)) (seq 1 9) s in
  spec_AddRoundKey (spec_ShiftRows (spec_SubBytes s)) (spec_round_key key 10).
End Cipher.
