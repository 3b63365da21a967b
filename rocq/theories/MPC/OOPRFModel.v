(** Model of mpc/oprf/ote_oprf.hpp: the OPRF from oblivious transfer.

    Loops whose iterations are independent (the OpenMP loops) are maps over the
    indices, or folds in index order where they write one array. Reading or
    writing outside an array is [None], in a protocol [Fail]. *)
From Coq Require Import NArith ZArith List Bool Arith.
From Verif.Base Require Import Words ListX.
From Verif.Crypto Require Import BlockModel AESModel PRGModel.
From Verif.Group Require Import ECModel.
From Verif.PKE Require Import ElGamalModel.
From Verif.Net Require Import ChannelModel PartyModel.
From Verif.OT Require Import OTModel.
From Verif.OKVS Require Import MatModel PaxosModel.
Import ListNotations.

(** :36-52 the parameters; pp.common_seed, the only one that changes, is a separate
    argument and result of Evaluate and Client. *)
Record params := mkPP { LOG : nat; WIDTH : nat; BATCH : nat; RANGE : nat }.
(** :54-81 Setup. 1 << LOG is an int: None from LOG = 31 on. *)
Definition setup_width (LOG : nat) : nat :=
  if LOG <=? 10 then 591 else if LOG <=? 12 then 597 else if LOG <=? 14 then 603
  else if LOG <=? 16 then 609 else if LOG <=? 18 then 615 else if LOG <=? 20 then 621 else 633.
Definition Setup (LOG ssp : nat) : option (params * Seed) :=
  if LOG <=? 30 then
    Some (mkPP LOG (setup_width LOG) (if LOG <? 10 then 2 ^ (LOG / 2) else 2 ^ 9) ((ssp + 2 * LOG + 7) / 8),
          SetSeed 0 (Some fixed_seed) 0)
  else None.
(** :57-58 MATRIX_HEIGHT and INPUT_NUM *)
Definition HEIGHT (p : params) : nat := 2 ^ LOG p.
(** :254-256 log_height_byte, matrix_height_byte, split_bucket_size; the last divides by 0
    if LOG = 0 *)
Definition lhb (p : params) : nat := (LOG p + 7) / 8.
Definition hb (p : params) : nat := HEIGHT p / 8.
Definition split (p : params) : option nat := if lhb p =? 0 then None else Some (16 / lhb p).
(** :262-264 the rows left_index .. right_index - 1 of one part *)
Definition bucket (p : params) (sp left : nat) : nat :=
  (if left + sp <? WIDTH p then left + sp else WIDTH p) - left.
(** the values of left_index *)
Definition lefts (p : params) (sp : nat) : list nat := map (fun c => c * sp) (seq 0 ((WIDTH p + sp - 1) / sp)).

(** the bit numbered k of an array of bytes: M[k >> 3] & (1 << (k & 7)) *)
Definition get_bit (M : list N) (k : nat) : option bool :=
  b <- rd M (k / 8) ;; Some (N.testbit b (N.of_nat (k mod 8))).
(** M[k >> 3] |= b << (k & 7) *)
Definition or_bit (M : list N) (k : nat) (b : bool) : option (list N) :=
  x <- rd M (k / 8) ;; wr M (k / 8) (N.lor x (N.shiftl (N.b2n b) (N.of_nat (k mod 8)))).
(** M[k >> 3] &= ~(1 << (k & 7)) *)
Definition clear_bit (M : list N) (k : nat) : option (list N) :=
  x <- rd M (k / 8) ;; wr M (k / 8) (N.ldiff x (N.shiftl 1 (N.of_nat (k mod 8)))).
Fixpoint fold_opt {A S} (f : S -> A -> option S) (s : S) (l : list A) : option S :=
  match l with [] => Some s | a :: l => s <- f s a ;; fold_opt f s l end.

(** memcpy(row + off, bs, |bs|) *)
Definition copy_to (row : list N) (off : nat) (bs : list N) : option (list N) :=
  if off + length bs <=? length row then Some (firstn off row ++ bs ++ skipn (off + length bs) row) else None.
(** ( *(uint32_t* )(row + j * log_height_byte)) & max_location: :339, 350-352 *)
Definition location (p : params) (row : list N) (j : nat) : option nat :=
  if j * lhb p + 4 <=? length row
  then Some (N.to_nat (N.land (le_val (firstn 4 (skipn (j * lhb p) row))) (2 ^ N.of_nat (LOG p) - 1)))
  else None.

Section OPRF.
Variable G : ECGroup.
Variable hash : list N -> list N.   (* BasicHash, 32 bytes *)
Variable g : pt G.

(** :179-207 Encode *)
Definition Encode (X : list N) (key : N) : list N :=
  let H := map (fun x => hash (le_bytes 16 x)) X in
  let Z0 := map (fun h => le_val (firstn 16 h)) H in
  let Z1 := map (fun h => le_val (firstn 16 (skipn 16 h))) H in
  map2 N.lxor (FastECBEnc (GenEncKey key) Z0) Z1.

(** :217-226 the row j of matrix_input *)
Definition pack_row (p : params) (values : list (list N)) (j : nat) : option (list N) :=
  fold_opt (fun row i => v <- rd values i ;; b <- get_bit v j ;; or_bit row i b) (repeat 0%N ((WIDTH p + 7) / 8)) (seq 0 (WIDTH p)).
(** :210-240 Packing. A batch beyond MATRIX_HEIGHT leaves matrix_input; a RANGE_SIZE above
    32 leaves the buffer. *)
Definition Packing (p : params) (values : list (list N)) : option (list (list N)) :=
  if (HEIGHT p mod BATCH p =? 0) && (RANGE p <=? 32) then
    all_some (fun j => row <- pack_row p values j ;; Some (firstn (RANGE p) (hash row))) (seq 0 (HEIGHT p))
  else None.

(** :346-358 (:430-442) for one part: the batches that begin below INPUT_NUM are encrypted,
    BATCH_SIZE blocks each, and their bytes copied to matrix_location *)
Definition batches (p : params) (n : nat) : nat := (n + BATCH p - 1) / BATCH p.
Definition enc_batches (p : params) (k : Key) (n : nat) (vec : list N) : option (list N) :=
  let m := batches p n * BATCH p in
  if m <=? length vec
  then Some (flat_map (fun q => FastECBEnc k (firstn (BATCH p) (skipn (q * BATCH p) vec))) (seq 0 (batches p n)) ++ skipn m vec)
  else None.
Definition fill_row (p : params) (n : nat) (vec : list N) (i : nat) (row : list N) : option (list N) :=
  fold_opt (fun row j => copy_to row (j * lhb p) (firstn (lhb p) (skipn (i * lhb p) (le_bytes 16 (nth j vec 0%N)))))
    row (seq 0 (batches p n * BATCH p)).
(** the rows below bucket_size are overwritten, the others kept *)
Definition fill_rows (p : params) (n bk : nat) (vec : list N) (rows : list (list N)) : option (list (list N)) :=
  r <- all_some (fun i => row <- rd rows i ;; fill_row p n vec i row) (seq 0 bk) ;; Some (r ++ skipn bk rows).
(** :335 (:411) matrix_location *)
Definition no_rows (p : params) (sp n : nat) : list (list N) := repeat (repeat 0%N (n * lhb p + 4)) sp.

(** :360-367 (:495-503) one row of matrix_mapping_values, from one row M of matrix_C (matrix_A) *)
Definition mapping (p : params) (n : nat) (M row : list N) : option (list N) :=
  fold_opt (fun v j => loc <- location p row j ;; b <- get_bit M loc ;; or_bit v j b) (repeat 0%N (hb p)) (seq 0 n).
(** :449-462 one row of matrix_D *)
Definition matrix_D (p : params) (n : nat) (row : list N) : option (list N) :=
  fold_opt (fun D j => loc <- location p row j ;; clear_bit D loc) (repeat 255%N (hb p)) (seq 0 n).

(** :327-329 the AES keys *)
Definition salts (p : params) (sp : nat) (s : Seed) : list N * Seed := GenRandomBlocks s (WIDTH p / sp + 2).

(** :341-368 *)
Fixpoint eval_parts (p : params) (sp n : nat) (salt : list N) (C : list (list N)) (vec : list N) (rows : list (list N)) (ls : list nat)
  : option (list (list N)) :=
  match ls with
  | [] => Some []
  | lo :: ls =>
      k <- rd salt (lo / sp + 1) ;;
      vec <- enc_batches p (GenEncKey k) n vec ;;
      rows <- fill_rows p n (bucket p sp lo) vec rows ;;
      vs <- all_some (fun i => row <- rd rows i ;; M <- rd C (lo + i) ;; mapping p n M row) (seq 0 (bucket p sp lo)) ;;
      rest <- eval_parts p sp n salt C vec rows ls ;; Some (vs ++ rest)
  end.
(** :312-316 the rows of the key *)
Definition key_rows (p : params) (key : list N) : option (list (list N)) :=
  all_some (fun i => if (i + 1) * HEIGHT p <=? length key then Some (firstn (HEIGHT p) (skipn (i * HEIGHT p) key)) else None)
    (seq 0 (WIDTH p)).
(** :301-379 Evaluate; the result with the new pp.common_seed *)
Definition Evaluate (p : params) (seed : Seed) (key X : list N) (n : nat) : option (list (list N) * Seed) :=
  C <- key_rows p key ;;
  sp <- split p ;;
  let '(salt, seed') := salts p sp seed in
  k0 <- rd salt 0 ;;
  v <- eval_parts p sp n salt C (Encode X k0) (no_rows p sp n) (lefts p sp) ;;
  out <- Packing p v ;; Some (out, seed').

(** PRG::ReSeed(seed, &k, 0); PRG::GenRandomBytes(seed, n): :270-271, 470-474 *)
Definition expand (k : N) (n : nat) : list N := fst (GenRandomBytes (ReSeed k 0) n).

(** :261-282 one part of the server; [sK]: the selection bits and the keys *)
Definition server_row (p : params) (B : list N) (i : nat) (sk : N * N) : list N :=
  let R := expand (snd sk) (hb p) in
  if (fst sk =? 0)%N then R else map2 N.lxor R (firstn (hb p) (skipn (i * hb p) B)).
Fixpoint server_parts (p : params) (sp : nat) (sK : list (N * N)) (ls : list nat) : party G (list (list N)) :=
  match ls with
  | [] => Ret []
  | lo :: ls =>
      get_bytes (bucket p sp lo * hb p) (fun B =>
      let C := map (fun i => server_row p B i (nth (lo + i) sK (0%N, 0%N))) (seq 0 (bucket p sp lo)) in
      pbind (server_parts p sp sK ls) (fun rest => Ret (C ++ rest)))
  end.
(** :249-251 the selection bits: from the fixed seed *)
Definition server_bits (p : params) : list N := fst (GenRandomBits (SetSeed 0 (Some fixed_seed) 0) (WIDTH p)).
(** :291-295 the key: WIDTH rows of HEIGHT bytes, of which HEIGHT/8 are written *)
Definition flatten (p : params) (C : list (list N)) : list N := flat_map (fun r => r ++ repeat 0%N (HEIGHT p - length r)) C.
(** :243-298 Server; [sk]: the randomness of the base OT *)
Definition Server (p : params) (sk : nat -> Z) : party G (list N) :=
  let bits := server_bits p in
  pbind (NP_Receive G hash g sk bits (WIDTH p)) (fun K =>
  local (split p) (fun sp =>
  pbind (server_parts p sp (combine bits K) (lefts p sp)) (fun C => Ret (flatten p C)))).

(** :466-481 one row of the message B *)
Definition client_row (p : params) (k0 k1 : N) (D : list N) : list N :=
  map2 N.lxor (expand k1 (hb p)) (map2 N.lxor (expand k0 (hb p)) D).
(** :415-503 *)
Fixpoint client_parts (p : params) (sp n : nat) (salt : list N) (K0 K1 : list N) (vec : list N) (rows : list (list N)) (ls : list nat)
  : party G (list (list N)) :=
  match ls with
  | [] => Ret []
  | lo :: ls =>
      let bk := bucket p sp lo in
      local (k <- rd salt (lo / sp + 1) ;; enc_batches p (GenEncKey k) n vec) (fun vec =>
      local (fill_rows p n bk vec rows) (fun rows =>
      local (all_some (fun i => row <- rd rows i ;; matrix_D p n row) (seq 0 bk)) (fun D =>
      Put (MBytes G (flat_map (fun i => client_row p (nth (lo + i) K0 0%N) (nth (lo + i) K1 0%N) (nth i D [])) (seq 0 bk)))
      (local (all_some (fun i => row <- rd rows i ;; mapping p n (expand (nth (lo + i) K0 0%N) (hb p)) row) (seq 0 bk)) (fun vs =>
      pbind (client_parts p sp n salt K0 K1 vec rows ls) (fun rest => Ret (vs ++ rest)))))))
  end.
(** :388-390 the keys of the base OT: from the fixed seed *)
Definition client_K0 (p : params) : list N := fst (GenRandomBlocks (SetSeed 0 (Some fixed_seed) 0) (WIDTH p)).
Definition client_K1 (p : params) : list N :=
  fst (GenRandomBlocks (snd (GenRandomBlocks (SetSeed 0 (Some fixed_seed) 0) (WIDTH p))) (WIDTH p)).
(** :382-507 Client; [d], [r]: the randomness of the base OT *)
Definition Client (p : params) (seed : Seed) (d : Z) (r : nat -> Z) (Y : list N) (n : nat) : party G (list (list N) * Seed) :=
  pbind (NP_Send G hash g d r (client_K0 p) (client_K1 p) (WIDTH p)) (fun _ =>
  local (split p) (fun sp =>
  let '(salt, seed') := salts p sp seed in
  local (rd salt 0) (fun k0 =>
  pbind (client_parts p sp n salt (client_K0 p) (client_K1 p) (Encode Y k0) (no_rows p sp n) (lefts p sp)) (fun v =>
  local (Packing p v) (fun out => Ret (out, seed')))))).
End OPRF.
