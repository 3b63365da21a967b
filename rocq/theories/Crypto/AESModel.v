(** Model of crypto/aes.hpp: AES-128 through the AES-NI and SSE2 intrinsics.

    A block is a number below 2^128 whose byte i (little endian) is byte i of the register.
    The intrinsics themselves follow Intel's definition of the instructions; they are the
    trusted part of this file. *)
From Coq Require Import Arith NArith List Bool.
From Verif.Base Require Import Words ListX.
From Verif.Crypto Require Import BlockModel.
Import ListNotations.
Local Open Scope N_scope.

(** ** The byte substitution tables of the AES instructions *)
Definition sbox : list N :=
 [99; 124; 119; 123; 242; 107; 111; 197; 48; 1; 103; 43; 254; 215; 171; 118;
  202; 130; 201; 125; 250; 89; 71; 240; 173; 212; 162; 175; 156; 164; 114; 192;
  183; 253; 147; 38; 54; 63; 247; 204; 52; 165; 229; 241; 113; 216; 49; 21;
  4; 199; 35; 195; 24; 150; 5; 154; 7; 18; 128; 226; 235; 39; 178; 117;
  9; 131; 44; 26; 27; 110; 90; 160; 82; 59; 214; 179; 41; 227; 47; 132;
  83; 209; 0; 237; 32; 252; 177; 91; 106; 203; 190; 57; 74; 76; 88; 207;
  208; 239; 170; 251; 67; 77; 51; 133; 69; 249; 2; 127; 80; 60; 159; 168;
  81; 163; 64; 143; 146; 157; 56; 245; 188; 182; 218; 33; 16; 255; 243; 210;
  205; 12; 19; 236; 95; 151; 68; 23; 196; 167; 126; 61; 100; 93; 25; 115;
  96; 129; 79; 220; 34; 42; 144; 136; 70; 238; 184; 20; 222; 94; 11; 219;
  224; 50; 58; 10; 73; 6; 36; 92; 194; 211; 172; 98; 145; 149; 228; 121;
  231; 200; 55; 109; 141; 213; 78; 169; 108; 86; 244; 234; 101; 122; 174; 8;
  186; 120; 37; 46; 28; 166; 180; 198; 232; 221; 116; 31; 75; 189; 139; 138;
  112; 62; 181; 102; 72; 3; 246; 14; 97; 53; 87; 185; 134; 193; 29; 158;
  225; 248; 152; 17; 105; 217; 142; 148; 155; 30; 135; 233; 206; 85; 40; 223;
  140; 161; 137; 13; 191; 230; 66; 104; 65; 153; 45; 15; 176; 84; 187; 22].
Definition inv_sbox : list N :=
 [82; 9; 106; 213; 48; 54; 165; 56; 191; 64; 163; 158; 129; 243; 215; 251;
  124; 227; 57; 130; 155; 47; 255; 135; 52; 142; 67; 68; 196; 222; 233; 203;
  84; 123; 148; 50; 166; 194; 35; 61; 238; 76; 149; 11; 66; 250; 195; 78;
  8; 46; 161; 102; 40; 217; 36; 178; 118; 91; 162; 73; 109; 139; 209; 37;
  114; 248; 246; 100; 134; 104; 152; 22; 212; 164; 92; 204; 93; 101; 182; 146;
  108; 112; 72; 80; 253; 237; 185; 218; 94; 21; 70; 87; 167; 141; 157; 132;
  144; 216; 171; 0; 140; 188; 211; 10; 247; 228; 88; 5; 184; 179; 69; 6;
  208; 44; 30; 143; 202; 63; 15; 2; 193; 175; 189; 3; 1; 19; 138; 107;
  58; 145; 17; 65; 79; 103; 220; 234; 151; 242; 207; 206; 240; 180; 230; 115;
  150; 172; 116; 34; 231; 173; 53; 133; 226; 249; 55; 232; 28; 117; 223; 110;
  71; 241; 26; 113; 29; 41; 197; 137; 111; 183; 98; 14; 170; 24; 190; 27;
  252; 86; 62; 75; 198; 210; 121; 32; 154; 219; 192; 254; 120; 205; 90; 244;
  31; 221; 168; 51; 136; 7; 199; 49; 177; 18; 16; 89; 39; 128; 236; 95;
  96; 81; 127; 169; 25; 181; 74; 13; 45; 229; 122; 159; 147; 201; 156; 239;
  160; 224; 59; 77; 174; 42; 245; 176; 200; 235; 187; 60; 131; 83; 153; 97;
  23; 43; 4; 126; 186; 119; 214; 38; 225; 105; 20; 99; 85; 33; 12; 125].

Definition sub (b : N) : N := nth (N.to_nat b) sbox 0.
Definition inv_sub (b : N) : N := nth (N.to_nat b) inv_sbox 0.

(** ** State transformations on 16 bytes, column by column *)
Definition permute (ix : list nat) (s : list N) : list N := map (fun i => nth i s 0) ix.
Definition shift_ix : list nat := [0; 5; 10; 15; 4; 9; 14; 3; 8; 13; 2; 7; 12; 1; 6; 11]%nat.
Definition inv_shift_ix : list nat := [0; 13; 10; 7; 4; 1; 14; 11; 8; 5; 2; 15; 12; 9; 6; 3]%nat.
Definition ShiftRows (s : list N) : list N := permute shift_ix s.
Definition InvShiftRows (s : list N) : list N := permute inv_shift_ix s.
Definition SubBytes (s : list N) : list N := map sub s.
Definition InvSubBytes (s : list N) : list N := map inv_sub s.

(** multiplication by 2 in GF(2^8), and by the constants of MixColumns *)
Definition xtime (x : N) : N := N.lxor (wrap 8 (N.shiftl x 1)) (if N.testbit x 7 then 27 else 0).
Definition m2 (x : N) := xtime x.
Definition m3 (x : N) := N.lxor (xtime x) x.
Definition m4 (x : N) := xtime (xtime x).
Definition m8 (x : N) := xtime (m4 x).
Definition m9 (x : N) := N.lxor (m8 x) x.
Definition m11 (x : N) := N.lxor (N.lxor (m8 x) (m2 x)) x.
Definition m13 (x : N) := N.lxor (N.lxor (m8 x) (m4 x)) x.
Definition m14 (x : N) := N.lxor (N.lxor (m8 x) (m4 x)) (m2 x).

Definition xor4 (a b c d : N) : N := N.lxor (N.lxor a b) (N.lxor c d).
Fixpoint MixColumns (s : list N) : list N :=
  match s with
  | a :: b :: c :: d :: r =>
      xor4 (m2 a) (m3 b) c d :: xor4 a (m2 b) (m3 c) d :: xor4 a b (m2 c) (m3 d) :: xor4 (m3 a) b c (m2 d) :: MixColumns r
  | _ => []
  end.
Fixpoint InvMixColumns (s : list N) : list N :=
  match s with
  | a :: b :: c :: d :: r =>
      xor4 (m14 a) (m11 b) (m13 c) (m9 d) :: xor4 (m9 a) (m14 b) (m11 c) (m13 d) ::
      xor4 (m13 a) (m9 b) (m14 c) (m11 d) :: xor4 (m11 a) (m13 b) (m9 c) (m14 d) :: InvMixColumns r
  | _ => []
  end.

(** ** The instructions *)
Definition bytes16 (x : N) : list N := le_bytes 16 x.
Definition aesenc (x k : N) : N := N.lxor (le_val (MixColumns (SubBytes (ShiftRows (bytes16 x))))) k.
Definition aesenclast (x k : N) : N := N.lxor (le_val (SubBytes (ShiftRows (bytes16 x)))) k.
Definition aesdec (x k : N) : N := N.lxor (le_val (InvMixColumns (InvSubBytes (InvShiftRows (bytes16 x))))) k.
Definition aesdeclast (x k : N) : N := N.lxor (le_val (InvSubBytes (InvShiftRows (bytes16 x)))) k.
Definition aesimc (x : N) : N := le_val (InvMixColumns (bytes16 x)).

(** 32-bit lanes *)
Definition dword (x : N) (i : nat) : N := wrap32 (N.shiftr x (32 * N.of_nat i)).
Definition of_dwords (d0 d1 d2 d3 : N) : N := d0 + 2 ^ 32 * (d1 + 2 ^ 32 * (d2 + 2 ^ 32 * d3)).
Definition SubWord (w : N) : N := le_val (map sub (le_bytes 4 w)).
(** RotWord: the first byte becomes the last *)
Definition RotWord (w : N) : N :=
  match le_bytes 4 w with b :: r => le_val (r ++ [b]) | [] => 0 end.
(** _mm_aeskeygenassist_si128(x, rc) *)
Definition keygenassist (x rc : N) : N :=
  of_dwords (SubWord (dword x 1)) (N.lxor (RotWord (SubWord (dword x 1))) rc)
            (SubWord (dword x 3)) (N.lxor (RotWord (SubWord (dword x 3))) rc).
(** _mm_shuffle_ps(a, b, imm) *)
Definition shuffle_ps (a b imm : N) : N :=
  let sel k := N.to_nat (N.land (N.shiftr imm (2 * k)) 3) in
  of_dwords (dword a (sel 0)) (dword a (sel 1)) (dword b (sel 2)) (dword b (sel 3)).
(** _mm_shuffle_epi32(a, imm) *)
Definition shuffle_epi32 (a imm : N) : N :=
  let sel k := N.to_nat (N.land (N.shiftr imm (2 * k)) 3) in
  of_dwords (dword a (sel 0)) (dword a (sel 1)) (dword a (sel 2)) (dword a (sel 3)).

(** ** Key schedule *)
(* crypto/aes.hpp:21-24  struct Key *)
Record Key := mkKey { roundkey : list N; ROUND_NUM : nat }.

(* crypto/aes.hpp:58-66  macro EXPAND_ASSIST(v1, v2, v3, v4 = v1, 255, rc): new (v1, v3);
   v2 is overwritten by each use before it is read *)
Definition EXPAND_ASSIST (v13 : N * N) (rc : N) : N * N :=
  let '(v1, v3) := v13 in
  let v2 := keygenassist v1 rc in
  let v3 := shuffle_ps v3 v1 16 in
  let v1 := N.lxor v1 v3 in
  let v3 := shuffle_ps v3 v1 140 in
  let v1 := N.lxor v1 v3 in
  let v2 := shuffle_epi32 v2 255 in
  (N.lxor v1 v2, v3).

Definition rcons : list N := [1; 2; 4; 8; 16; 32; 64; 128; 27; 54].
Fixpoint expand (v13 : N * N) (rcs : list N) : list N :=
  match rcs with
  | [] => []
  | rc :: r => let s := EXPAND_ASSIST v13 rc in fst s :: expand s r
  end.
(* crypto/aes.hpp:70-98  GenEncKey *)
Definition GenEncKey (salt : N) : Key := mkKey (salt :: expand (salt, 0) rcons) 10.

(* crypto/aes.hpp:106-107  while (i >= 1) dec[i--] = aesimc(enc[j++]) *)
Fixpoint dec_loop (enc : list N) (i j : nat) (dk : list N) : list N * nat :=
  match i with
  | O => (dk, j)
  | S i' => dec_loop enc i' (S j) (upd dk i (aesimc (nth j enc 0)))
  end.
(* crypto/aes.hpp:100-111  DeriveDecKeyFromEncKey; garbage: the uninitialised array of 11 blocks *)
Definition DeriveDecKeyFromEncKey (garbage : list N) (k : Key) : Key :=
  let R := ROUND_NUM k in
  let dk := upd garbage R (nth 0 (roundkey k) 0) in
  let '(dk, j) := dec_loop (roundkey k) (R - 1) 1 dk in
  mkKey (upd dk 0 (nth j (roundkey k) 0)) R.

(* crypto/aes.hpp:114-119  GenDecKey *)
Definition GenDecKey (garbage : list N) (salt : N) : Key := DeriveDecKeyFromEncKey garbage (GenEncKey salt).

(** ** Encryption and decryption *)
Definition rk (k : Key) (j : nat) : N := nth j (roundkey k) 0.
(* crypto/aes.hpp:121-128  Enc *)
Definition Enc (k : Key) (data : N) : N :=
  aesenclast (fold_left (fun d j => aesenc d (rk k j)) (seq 1 (ROUND_NUM k - 1)) (N.lxor data (rk k 0))) (rk k (ROUND_NUM k)).
(* crypto/aes.hpp:130-137  Dec *)
Definition Dec (k : Key) (data : N) : N :=
  aesdeclast (fold_left (fun d j => aesdec d (rk k j)) (seq 1 (ROUND_NUM k - 1)) (N.lxor data (rk k 0))) (rk k (ROUND_NUM k)).

(* crypto/aes.hpp:139-145, 181-187  ECBEnc, ECBDec: one independent loop body per block,
   so the thread count does not matter *)
Definition ECBEnc (k : Key) (data : list N) : list N := map (Enc k) data.
Definition ECBDec (k : Key) (data : list N) : list N := map (Dec k) data.

(* crypto/aes.hpp:160-170  one batch, round by round over the whole batch *)
Definition enc_batch (k : Key) (plain : list N) : list N :=
  let temp := map (fun p => N.lxor p (rk k 0)) plain in
  let temp := fold_left (fun t r => map (fun b => aesenc b (rk k r)) t) (seq 1 (ROUND_NUM k - 1)) temp in
  map (fun b => aesenclast b (rk k (ROUND_NUM k))) temp.
Fixpoint enc_batches (k : Key) (n : nat) (plain : list N) : list N :=
  match n with
  | O => map (Enc k) plain   (* 172-178: the blocks after the last full batch *)
  | S n' => enc_batch k (firstn 8 plain) ++ enc_batches k n' (skipn 8 plain)
  end.
(* crypto/aes.hpp:151-179  FastECBEnc; each batch reads its plaintexts before it writes, so the
   in-place and the out-of-place call give the same result *)
Definition FastECBEnc (k : Key) (plain : list N) : list N := enc_batches k (length plain / 8)%nat plain.

(* crypto/aes.hpp:17  IV *)
Definition IV : N := zero_block.
(* crypto/aes.hpp:192-199 *)
Fixpoint cbc_enc_from (k : Key) (prev : N) (data : list N) : list N :=
  match data with
  | [] => []
  | d :: r => let c := Enc k (N.lxor d prev) in c :: cbc_enc_from k c r
  end.
(* crypto/aes.hpp:190-200  CBCEnc; data[0] is touched even when BLOCK_LEN = 0: None *)
Definition CBCEnc (k : Key) (data : list N) : option (list N) :=
  match data with [] => None | _ => Some (cbc_enc_from k IV data) end.
(* crypto/aes.hpp:205-209  for i = n downto 1: data[i] = Dec(data[i]) ^ data[i-1], in place *)
Fixpoint cbc_dec_loop (k : Key) (i : nat) (data : list N) : list N :=
  match i with
  | O => data
  | S i' => cbc_dec_loop k i' (upd data i (N.lxor (Dec k (nth i data 0)) (nth i' data 0)))
  end.
(* crypto/aes.hpp:203-213  CBCDec; BLOCK_LEN - 1 wraps for an empty vector: None *)
Definition CBCDec (k : Key) (data : list N) : option (list N) :=
  match data with
  | [] => None
  | _ => let data := cbc_dec_loop k (length data - 1) data in
         Some (upd data 0 (N.lxor (Dec k (nth 0 data 0)) IV))
  end.
