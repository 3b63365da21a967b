(** Bloom filter (filter/bloom_filter.hpp). *)
From Coq Require Import NArith List Bool.
From Verif.Base Require Import Words ListX.
Import ListNotations.
Local Open Scope N_scope.

(* filter/bloom_filter.hpp:17  bit_mask[8] = {0x01, ..., 0x80} *)
Definition bit_mask : list N := [0x01; 0x02; 0x04; 0x08; 0x10; 0x20; 0x40; 0x80].

(* filter/bloom_filter.hpp:29-45 *)
Definition predefined_salt : list N :=
  [ 0xAAAAAAAA; 0x55555555; 0x33333333; 0xCCCCCCCC; 0x66666666; 0x99999999; 0xB5B5B5B5; 0x4B4B4B4B;
    0xAA55AA55; 0x55335533; 0x33CC33CC; 0xCC66CC66; 0x66996699; 0x99B599B5; 0xB54BB54B; 0x4BAA4BAA;
    0xAA33AA33; 0x55CC55CC; 0x33663366; 0xCC99CC99; 0x66B566B5; 0x994B994B; 0xB5AAB5AA; 0xAAAAAA33;
    0x555555CC; 0x33333366; 0xCCCCCC99; 0x666666B5; 0x9999994B; 0xB5B5B5AA; 0xFFFFFFFF; 0xFFFF0000;
    0xB823D5EB; 0xC1191CDF; 0xF623AEB3; 0xDB58499F; 0xC8D42E70; 0xB173F616; 0xA91A5967; 0xDA427D63;
    0xB1E8A2EA; 0xF6C0D155; 0x4909FEA3; 0xA68CC6A7; 0xC395E782; 0xA26057EB; 0x0CD5DA28; 0x467C5492;
    0xF15E6982; 0x61C6FAD3; 0x9615E352; 0x6E9E355A; 0x689B563E; 0x0C9831A8; 0x6753C18B; 0xA622689B;
    0x8CA63C47; 0x42CC2884; 0x8E89919B; 0x6EDBD7D3; 0x15B6796C; 0x1D6FDFE4; 0x63FF9092; 0xE7401432;
    0xEFFE9412; 0xAEAEDF79; 0x9F245A31; 0x83C136FC; 0xC3DA4A8C; 0xA5112C8C; 0x5271F491; 0x9A948DAB;
    0xCEE59A8D; 0xB5F525AB; 0x59D13217; 0x24E7C331; 0x697C2103; 0x84B0A460; 0x86156DA9; 0xAEF2AC68;
    0x23243DA5; 0x3F649643; 0x5FA495A8; 0x67710DF8; 0x9A6C499E; 0xDCFB0227; 0x46A43433; 0x1832B07A;
    0xC46AFF3C; 0xB9C8FFF0; 0xC9500467; 0x34431BDF; 0xB652432B; 0xE367F12B; 0x427F4C1B; 0x224C006E;
    0x2E7E5A89; 0x96F99AA5; 0x0BEB452A; 0x2FD87C39; 0x74B2E1FB; 0x222EFD24; 0xF357F60C; 0x440FCB1E;
    0x8BBE030F; 0x6704DC29; 0x1144D12F; 0x948B1355; 0x6D8FD7E9; 0x1C11A014; 0xADD1592F; 0xFB3C712E;
    0xFC77642F; 0xF9C4CE8C; 0x31312FB9; 0x08B0DD79; 0x318FA6E7; 0xC040D23D; 0xC0589AA7; 0x0CA5C075;
    0xF874B172; 0x0CF914D5; 0x784D3280; 0x4E8CFEBC; 0xC569F575; 0xCDB2A091; 0x2CC016B4; 0x5C5F4421 ].

(* filter/bloom_filter.hpp:51-53  body of the in-place loop
   vec_salt[i] = vec_salt[i] * vec_salt[(i+3) % size] + random_seed  (uint32_t) *)
Definition salt_step (random_seed : N) (v : list N) (i : nat) : list N :=
  upd v i (add32 (mul32 (nth i v 0) (nth (Nat.modulo (i + 3) (length v)) v 0)) random_seed).

Definition salt_small (hash_num random_seed : N) : list N :=
  fold_left (salt_step random_seed) (seq 0 (N.to_nat hash_num))
            (firstn (N.to_nat hash_num) predefined_salt).

(* filter/bloom_filter.hpp:27-68.  For hash_num > 128 the code extends the
   table with srand(random_seed)/rand(); [big_salt hash_num random_seed] stands
   for the result of that branch.  Simplification: the C library generator is
   not modelled, only that it is a function of the seed it was given. *)
Definition GenUniqueSaltVector (big_salt : N -> N -> list N) (hash_num random_seed : N) : list N :=
  if hash_num <=? 128 then salt_small hash_num random_seed
  else big_salt hash_num random_seed.

(* filter/bloom_filter.hpp:70-81  class BloomFilter *)
Record BloomFilter := mkBloom {
  bf_random_seed : N;
  bf_hash_num : N;
  bf_vec_salt : list N;
  bf_table_size : N;
  bf_bit_table : list N;
  bf_projected_element_num : N;
  bf_inserted_element_num : N
}.

(* filter/bloom_filter.hpp:94 *)
Definition bloom_seed : N := wrap32 (wrap64 (wrap64 (0xA5A5A5A55A5A5A5A * 0xA5A5A5A5) + 1)).

(* filter/bloom_filter.hpp:99  ((t + 7) >> 3) << 3 on uint32_t *)
Definition round8 (t : N) : N := shl32 (shr32 (add32 t 7) 3) 3.

(* filter/bloom_filter.hpp:89-104.  [raw_bits] is the value of
   static_cast<uint32_t>(max_element_num * (1.44 * statistical_security_parameter)).
   Simplification: the floating-point product is an argument. *)
Definition bloom_new (big_salt : N -> N -> list N)
    (max_element_num statistical_security_parameter raw_bits : N) : BloomFilter :=
  let hash_num := wrap32 statistical_security_parameter in
  let table_size := round8 raw_bits in
  {| bf_random_seed := bloom_seed;
     bf_hash_num := hash_num;
     bf_vec_salt := GenUniqueSaltVector big_salt hash_num bloom_seed;
     bf_table_size := table_size;
     bf_bit_table := repeat 0 (N.to_nat (table_size / 8));
     bf_projected_element_num := max_element_num;
     bf_inserted_element_num := 0 |}.

(* filter/bloom_filter.hpp:108-115 *)
Definition bloom_ObjectSize (f : BloomFilter) : N := 3 * 4 + 2 * 8 + bf_table_size f / 8.

Section Hashed.
(** FastKeyedHash (filter/bloom_filter.hpp:20): salt, input bytes -> uint32_t *)
Variable FastKeyedHash : N -> list N -> N.

(* filter/bloom_filter.hpp:124  bit_index[i]; None: vec_salt[i] out of bounds or
   remainder by zero *)
Definition bit_index (f : BloomFilter) (input : list N) (i : nat) : option N :=
  match nth_error (bf_vec_salt f) i with
  | None => None
  | Some salt =>
      if bf_table_size f =? 0 then None
      else Some (FastKeyedHash salt input mod bf_table_size f)
  end.

(** The atomic memory steps performed by the insertion code. *)
Inductive insert_step :=
| OrBit (input : list N) (i : nat)   (* filter/bloom_filter.hpp:124-126, loop iteration i *)
| IncCount.                          (* filter/bloom_filter.hpp:128-129 *)

(* bit_table[idx >> 3] |= bit_mask[idx & 7];  None: out-of-bounds access *)
Definition or_bit (table : list N) (idx : N) : option (list N) :=
  let byte := N.to_nat (N.shiftr idx 3) in
  match nth_error table byte, nth_error bit_mask (N.to_nat (N.land idx 7)) with
  | Some b, Some m => Some (upd table byte (N.lor b m))
  | _, _ => None
  end.

Definition set_table (f : BloomFilter) (t : list N) : BloomFilter :=
  {| bf_random_seed := bf_random_seed f; bf_hash_num := bf_hash_num f;
     bf_vec_salt := bf_vec_salt f; bf_table_size := bf_table_size f;
     bf_bit_table := t; bf_projected_element_num := bf_projected_element_num f;
     bf_inserted_element_num := bf_inserted_element_num f |}.

Definition set_count (f : BloomFilter) (c : N) : BloomFilter :=
  {| bf_random_seed := bf_random_seed f; bf_hash_num := bf_hash_num f;
     bf_vec_salt := bf_vec_salt f; bf_table_size := bf_table_size f;
     bf_bit_table := bf_bit_table f; bf_projected_element_num := bf_projected_element_num f;
     bf_inserted_element_num := c |}.

Definition exec_insert_step (f : BloomFilter) (s : insert_step) : option BloomFilter :=
  match s with
  | OrBit input i =>
      match bit_index f input i with
      | None => None
      | Some idx => match or_bit (bf_bit_table f) idx with
                    | None => None
                    | Some t => Some (set_table f t)
                    end
      end
  | IncCount => Some (set_count f (wrap64 (bf_inserted_element_num f + 1)))
  end.

Fixpoint exec_insert_steps (f : BloomFilter) (l : list insert_step) : option BloomFilter :=
  match l with
  | [] => Some f
  | s :: r => match exec_insert_step f s with
              | None => None
              | Some f' => exec_insert_steps f' r
              end
  end.

(* filter/bloom_filter.hpp:118-130  the atomic steps of one PlainInsert *)
Definition PlainInsert_steps (f : BloomFilter) (input : list N) : list insert_step :=
  map (OrBit input) (seq 0 (N.to_nat (bf_hash_num f))) ++ [IncCount].

(* filter/bloom_filter.hpp:180-200, 306-312  all steps of a container insertion *)
Definition Insert_steps (f : BloomFilter) (inputs : list (list N)) : list insert_step :=
  flat_map (PlainInsert_steps f) inputs.

(* filter/bloom_filter.hpp:215  test of one probe bit; None: undefined behaviour *)
Definition probe (f : BloomFilter) (input : list N) (i : nat) : option bool :=
  match bit_index f input i with
  | None => None
  | Some idx =>
      match nth_error (bf_bit_table f) (N.to_nat (N.shiftr idx 3)),
            nth_error bit_mask (N.to_nat (N.land idx 7)) with
      | Some b, Some m => Some (N.land b m =? m)
      | _, _ => None
      end
  end.

(** filter/bloom_filter.hpp:203-222  PlainContain: the parallel loop with the
    shared flag CONTAIN.  [contain_exec waiting running flag result]: the
    iterations in [waiting] have not yet tested the flag, those in [running]
    saw it true and are about to test their bit.  Any thread may move at any
    time. *)
Inductive contain_exec (f : BloomFilter) (input : list N)
  : list nat -> list nat -> bool -> bool -> Prop :=
| CE_done : forall flag, contain_exec f input [] [] flag flag
| CE_skip : forall w1 i w2 r b,            (* flag already false: iteration does nothing *)
    contain_exec f input (w1 ++ w2) r false b ->
    contain_exec f input (w1 ++ i :: w2) r false b
| CE_enter : forall w1 i w2 r b,           (* flag read as true *)
    contain_exec f input (w1 ++ w2) (i :: r) true b ->
    contain_exec f input (w1 ++ i :: w2) r true b
| CE_test : forall w r1 i r2 flag hit b,   (* bit test, possibly clearing the flag *)
    probe f input i = Some hit ->
    contain_exec f input w (r1 ++ r2) (if hit then flag else false) b ->
    contain_exec f input w (r1 ++ i :: r2) flag b.

(** one complete PlainContain call returning [b] *)
Definition PlainContain (f : BloomFilter) (input : list N) (b : bool) : Prop :=
  contain_exec f input (seq 0 (N.to_nat (bf_hash_num f))) [] true b.

End Hashed.

(* filter/bloom_filter.hpp:342-346 *)
Definition bloom_Clear (f : BloomFilter) : BloomFilter :=
  set_count (set_table f (repeat 0 (length (bf_bit_table f)))) 0.

(* filter/bloom_filter.hpp:401-427 (buffer) and 349-372 (file): the sequence of
   bytes written; both variants write the same fields in the same order *)
Definition bloom_WriteObject (f : BloomFilter) : list N :=
  le_bytes 4 (bf_random_seed f) ++ le_bytes 4 (bf_hash_num f) ++ le_bytes 4 (bf_table_size f) ++
  le_bytes 8 (bf_projected_element_num f) ++ le_bytes 8 (bf_inserted_element_num f) ++
  firstn (N.to_nat (bf_table_size f / 8)) (bf_bit_table f).

(** [take n l]: first [n] bytes; None when the buffer is too short *)
Definition take (n : nat) (l : list N) : option (list N * list N) :=
  if Nat.leb n (length l) then Some (firstn n l, skipn n l) else None.

(* filter/bloom_filter.hpp:430-462 (buffer) and 375-398 (file).  None: the
   buffer is shorter than what is read. *)
Definition bloom_ReadObject (big_salt : N -> N -> list N) (buf : list N) : option BloomFilter :=
  match take 4 buf with None => None | Some (b1, buf1) =>
  match take 4 buf1 with None => None | Some (b2, buf2) =>
  match take 4 buf2 with None => None | Some (b3, buf3) =>
  match take 8 buf3 with None => None | Some (b4, buf4) =>
  match take 8 buf4 with None => None | Some (b5, buf5) =>
  let random_seed := le_val b1 in
  let hash_num := le_val b2 in
  let table_size := le_val b3 in
  match take (N.to_nat (table_size / 8)) buf5 with None => None | Some (t, _) =>
  Some {| bf_random_seed := random_seed;
          bf_hash_num := hash_num;
          bf_vec_salt := GenUniqueSaltVector big_salt hash_num random_seed;
          bf_table_size := table_size;
          bf_bit_table := t;
          bf_projected_element_num := le_val b4;
          bf_inserted_element_num := le_val b5 |}
  end end end end end end.
