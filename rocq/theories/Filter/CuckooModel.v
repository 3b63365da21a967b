(** Model of filter/cuckoo_filter.hpp. *)
From Coq Require Import NArith List Bool.
From Verif.Base Require Import Words ListX Mem.
From Verif.Utility Require Import BitOpModel.
From Verif.Filter Require Import MurmurModel.
Import ListNotations.
Local Open Scope N_scope.

(* filter/cuckoo_filter.hpp:26-47  the data members (VictimCache flattened) *)
Record cuckoo := mkCuckoo {
  cf_table : list N;         (* bucket_table *)
  cf_count : N;              (* inserted_element_num *)
  cf_max_kick : N;           (* max_kick_count *)
  cf_slot_num : N;
  cf_tag_bits : N;           (* tag_bit_size *)
  cf_bucket_bytes : N;       (* bucket_byte_size *)
  cf_bucket_num : N;
  cf_vic_idx : N;            (* victim.bucket_index *)
  cf_vic_tag : N;
  cf_vic_used : N }.

Definition set_table f t := mkCuckoo t (cf_count f) (cf_max_kick f) (cf_slot_num f) (cf_tag_bits f)
  (cf_bucket_bytes f) (cf_bucket_num f) (cf_vic_idx f) (cf_vic_tag f) (cf_vic_used f).
Definition set_count f c := mkCuckoo (cf_table f) c (cf_max_kick f) (cf_slot_num f) (cf_tag_bits f)
  (cf_bucket_bytes f) (cf_bucket_num f) (cf_vic_idx f) (cf_vic_tag f) (cf_vic_used f).
Definition set_victim f i t u := mkCuckoo (cf_table f) (cf_count f) (cf_max_kick f) (cf_slot_num f)
  (cf_tag_bits f) (cf_bucket_bytes f) (cf_bucket_num f) i t u.

(* filter/cuckoo_filter.hpp:51-71  constructor.  [doubled] is the outcome of the
   floating-point test load_factor > 0.96 (all theorems hold for both outcomes);
   vi, vt are the uninitialised victim.bucket_index / victim.tag. *)
Definition cuckoo_new (projected : N) (doubled : bool) (vi vt : N) : cuckoo :=
  let bn := upperpower2 (N.max 1 (wrap32 (projected / 4))) in
  let bn := if doubled then bn * 2 else bn in
  mkCuckoo (repeat 0 (N.to_nat (bn * 4 * 16 / 8))) 0 500 4 16 8 bn vi vt 0.

(* filter/cuckoo_filter.hpp:76-80 *)
Definition ObjectSize (f : cuckoo) : N := 6 * 8 + N.of_nat (length (cf_table f)) + 4 * 3.

(* filter/cuckoo_filter.hpp:83-86 *)
Definition ComputeBucketIndex (f : cuckoo) (hash : N) : N :=
  wrap32 (N.land hash (sub64 (cf_bucket_num f) 1)).

(* filter/cuckoo_filter.hpp:88-94 *)
Definition ComputeTag (f : cuckoo) (hash : N) : N :=
  let tag := shr32 hash (32 - cf_tag_bits f) in
  add32 tag (if tag =? 0 then 1 else 0).

(* filter/cuckoo_filter.hpp:96-100 *)
Definition ComputeAnotherBucketIndex (f : cuckoo) (bucket tag : N) : N :=
  wrap32 (N.land (N.lxor bucket (mul32 tag 0x5bd1e995)) (sub64 (cf_bucket_num f) 1)).

(* filter/cuckoo_filter.hpp:300-311; only the case tag_bit_size = 16 (the value
   set by the constructor) is modelled, other values give None *)
Definition ReadTag (f : cuckoo) (bucket slot : N) : option N :=
  if cf_tag_bits f =? 16
  then option_map le_val (read_bytes (cf_table f) (bucket * cf_bucket_bytes f + 2 * slot) 2)
  else None.

(* filter/cuckoo_filter.hpp:314-323; the tag is truncated to 16 bits *)
Definition WriteTag (f : cuckoo) (bucket slot tag : N) : option cuckoo :=
  if cf_tag_bits f =? 16
  then option_map (set_table f)
         (write_bytes (cf_table f) (bucket * cf_bucket_bytes f + 2 * slot) (le_bytes 2 tag))
  else None.

(* filter/cuckoo_filter.hpp:326-340, case tag_bit_size = 16 *)
Definition FindTagInBucket (f : cuckoo) (bucket tag : N) : option bool :=
  if cf_tag_bits f =? 16
  then match read_bytes (cf_table f) (bucket * cf_bucket_bytes f) 8 with
       | Some bs => Some (negb (hasvalue16 (le_val bs) tag =? 0))
       | None => None
       end
  else None.

(* filter/cuckoo_filter.hpp:342-351  loop from slot [s], [n] slots to go; the
   result carries the slot that was cleared *)
Fixpoint delete_loop (f : cuckoo) (bucket tag s : N) (n : nat) : option (cuckoo * option N) :=
  match n with
  | O => Some (f, None)
  | S n' =>
      match ReadTag f bucket s with
      | None => None
      | Some t =>
          if t =? tag
          then match WriteTag f bucket s 0 with
               | Some f' => Some (f', Some s)
               | None => None
               end
          else delete_loop f bucket tag (s + 1) n'
      end
  end.
Definition DeleteTagFromBucket (f : cuckoo) (bucket tag : N) : option (cuckoo * option N) :=
  delete_loop f bucket tag 0 (N.to_nat (cf_slot_num f)).

(* filter/cuckoo_filter.hpp:20-24 *)
Inductive insert_status := SuccessAndNoKick | FreshInsertFailure | SuccessButKick (kickout : N).

(* filter/cuckoo_filter.hpp:353-374; rnd is the value of rand() *)
Fixpoint insert_slot_loop (f : cuckoo) (bucket tag s : N) (n : nat) : option (option cuckoo) :=
  match n with
  | O => Some None
  | S n' =>
      match ReadTag f bucket s with
      | None => None
      | Some t =>
          if t =? 0
          then option_map Some (WriteTag f bucket s tag)
          else insert_slot_loop f bucket tag (s + 1) n'
      end
  end.
Definition InsertTagToBucket (f : cuckoo) (bucket tag : N) (licence : bool) (rnd : N)
  : option (cuckoo * insert_status) :=
  match insert_slot_loop f bucket tag 0 (N.to_nat (cf_slot_num f)) with
  | None => None
  | Some (Some f') => Some (f', SuccessAndNoKick)
  | Some None =>
      if licence then
        let r := rnd mod cf_slot_num f in
        match ReadTag f bucket r with
        | None => None
        | Some k => option_map (fun f' => (f', SuccessButKick k)) (WriteTag f bucket r tag)
        end
      else Some (f, FreshInsertFailure)
  end.

(* filter/cuckoo_filter.hpp:126-140  the while loop and what follows it.  rnd k is
   the value rand() returns for the k-th kick.  Running out of fuel gives None;
   PlainInsert supplies max_kick_count + 2, which is enough (the loop body either
   returns, raises kick_count, or sets licence_to_kickout once). *)
Fixpoint insert_loop (fuel : nat) (rnd : N -> N) (f : cuckoo) (bucket tag : N) (licence : bool)
  (kick : N) : option cuckoo :=
  match fuel with
  | O => None
  | S fuel' =>
      if kick <? cf_max_kick f then
        match InsertTagToBucket f bucket tag licence (rnd kick) with
        | None => None
        | Some (f', SuccessAndNoKick) => Some (set_count f' (wrap64 (cf_count f' + 1)))
        | Some (f', FreshInsertFailure) =>
            insert_loop fuel' rnd f' (ComputeAnotherBucketIndex f' bucket tag) tag true kick
        | Some (f', SuccessButKick k) =>
            insert_loop fuel' rnd f' (ComputeAnotherBucketIndex f' bucket k) k licence (kick + 1)
        end
      else Some (set_victim f bucket tag 1)
  end.

(* filter/cuckoo_filter.hpp:18,114  FastHash(fixed_salt32, input, LEN); H is the
   hash function, LiteMurmurHash in the code *)
Section Hash.
Variable H : N -> list N -> N.

(* filter/cuckoo_filter.hpp:108-141; result: new filter and the returned bool *)
Definition PlainInsert (rnd : N -> N) (f : cuckoo) (x : list N) : option (cuckoo * bool) :=
  if negb (cf_vic_used f =? 0) then Some (f, false)
  else
    let hash := H fixed_salt32 x in
    option_map (fun f' => (f', true))
      (insert_loop (N.to_nat (cf_max_kick f) + 2) rnd f (ComputeBucketIndex f hash)
         (ComputeTag f hash) false 0).

(* filter/cuckoo_filter.hpp:207-219 *)
Definition PlainContain (f : cuckoo) (x : list N) : option bool :=
  let hash := H fixed_salt32 x in
  let index1 := ComputeBucketIndex f hash in
  let tag := ComputeTag f hash in
  let index2 := ComputeAnotherBucketIndex f index1 tag in
  match FindTagInBucket f index1 tag with
  | None => None
  | Some true => Some true
  | Some false =>
      match FindTagInBucket f index2 tag with
      | None => None
      | Some true => Some true
      | Some false =>
          Some (negb (cf_vic_used f =? 0) && (tag =? cf_vic_tag f) &&
                ((index1 =? cf_vic_idx f) || (index2 =? cf_vic_idx f)))
      end
  end.

(* filter/cuckoo_filter.hpp:240-249 *)
Definition TrySaveVictim (f : cuckoo) (bucket slot tag : N) : option cuckoo :=
  if negb (cf_vic_used f =? 0) && (cf_vic_idx f =? bucket) && (cf_vic_tag f =? tag)
  then WriteTag (set_victim f (cf_vic_idx f) (cf_vic_tag f) 0) bucket slot tag
  else Some f.

(* filter/cuckoo_filter.hpp:261-265 and 267-271 *)
Definition delete_and_refill (f : cuckoo) (bucket tag : N) : option (cuckoo * bool) :=
  match DeleteTagFromBucket f bucket tag with
  | None => None
  | Some (f', None) => Some (f', false)
  | Some (f', Some slot) =>
      option_map (fun f'' => (f'', true))
        (TrySaveVictim (set_count f' (sub64 (cf_count f') 1)) bucket slot tag)
  end.

(* filter/cuckoo_filter.hpp:252-279 *)
Definition PlainDelete (f : cuckoo) (x : list N) : option (cuckoo * bool) :=
  let hash := H fixed_salt32 x in
  let index1 := ComputeBucketIndex f hash in
  let tag := ComputeTag f hash in
  let index2 := ComputeAnotherBucketIndex f index1 tag in
  match delete_and_refill f index1 tag with
  | None => None
  | Some (f1, d1) =>
      match delete_and_refill f1 index2 tag with
      | None => None
      | Some (f2, d2) =>
          if negb (cf_vic_used f2 =? 0) && (tag =? cf_vic_tag f2) &&
             ((index1 =? cf_vic_idx f2) || (index2 =? cf_vic_idx f2))
          then Some (set_victim f2 (cf_vic_idx f2) (cf_vic_tag f2) 0, true)
          else Some (f2, d1 || d2)
      end
  end.

(* filter/cuckoo_filter.hpp:155-160, 232-237  Insert/Contain(ECPoint).  The buffer
   of POINT_BYTE_LEN = 65 bytes is uninitialised; EC_POINT_point2oct writes the
   33-byte compressed encoding [enc] at its start.  [garbage] is the previous
   content of the stack buffer. *)
Definition point_buffer (garbage enc : list N) : option (list N) := write_bytes garbage 0 enc.
Definition InsertPoint (rnd : N -> N) (f : cuckoo) (garbage enc : list N) : option (cuckoo * bool) :=
  match point_buffer garbage enc with Some b => PlainInsert rnd f b | None => None end.
Definition ContainPoint (f : cuckoo) (garbage enc : list N) : option bool :=
  match point_buffer garbage enc with Some b => PlainContain f b | None => None end.
End Hash.

(* filter/cuckoo_filter.hpp:432-452  WriteObject(char* buffer): memcpy calls in
   program order into a buffer [buf]; a memcpy past its end is undefined (None) *)
Definition opt_bind {A B} (o : option A) (k : A -> option B) : option B :=
  match o with Some a => k a | None => None end.
Definition WriteObject (f : cuckoo) (buf : list N) : option (list N) :=
  opt_bind (write_bytes buf 0 (le_bytes 8 (cf_count f))) (fun b =>
  opt_bind (write_bytes b 8 (le_bytes 8 (cf_max_kick f))) (fun b =>
  opt_bind (write_bytes b 16 (le_bytes 8 (cf_slot_num f))) (fun b =>
  opt_bind (write_bytes b 24 (le_bytes 8 (cf_tag_bits f))) (fun b =>
  opt_bind (write_bytes b 32 (le_bytes 8 (cf_bucket_bytes f))) (fun b =>
  opt_bind (write_bytes b 40 (le_bytes 8 (cf_bucket_num f))) (fun b =>
  opt_bind (write_bytes b 48 (le_bytes 4 (cf_vic_idx f))) (fun b =>
  opt_bind (write_bytes b 52 (le_bytes 4 (cf_vic_tag f))) (fun b =>
  opt_bind (write_bytes b 66 (le_bytes 4 (cf_vic_used f))) (fun b =>
  write_bytes b 60 (cf_table f)))))))))).

(* filter/cuckoo_filter.hpp:454-475  ReadObject(char* buffer) *)
Definition ReadObject (buf : list N) : option cuckoo :=
  let get off len := option_map le_val (read_bytes buf off len) in
  opt_bind (get 0 8) (fun count =>
  opt_bind (get 8 8) (fun mk =>
  opt_bind (get 16 8) (fun sn =>
  opt_bind (get 24 8) (fun tb =>
  opt_bind (get 32 8) (fun bb =>
  opt_bind (get 40 8) (fun bn =>
  opt_bind (get 48 4) (fun vi =>
  opt_bind (get 52 4) (fun vt =>
  opt_bind (get 56 4) (fun vu =>
  opt_bind (read_bytes buf 60 (wrap64 (bb * bn))) (fun t =>
  Some (mkCuckoo t count mk sn tb bb bn vi vt vu))))))))))).

(* filter/cuckoo_filter.hpp:376-404  WriteObject(file): field order *)
Definition WriteFile (f : cuckoo) : list N :=
  le_bytes 8 (cf_count f) ++ le_bytes 8 (cf_max_kick f) ++ le_bytes 8 (cf_slot_num f) ++
  le_bytes 8 (cf_tag_bits f) ++ le_bytes 8 (cf_bucket_bytes f) ++ le_bytes 8 (cf_bucket_num f) ++
  le_bytes 4 (cf_vic_idx f) ++ le_bytes 4 (cf_vic_tag f) ++ le_bytes 4 (cf_vic_used f) ++
  cf_table f.

(* isspace in the "C" locale: tab, newline, vertical tab, form feed, carriage return, space *)
Definition is_space (b : N) : bool := (b =? 32) || ((9 <=? b) && (b <=? 13)).
Fixpoint skip_ws (l : list N) : list N :=
  match l with b :: r => if is_space b then skip_ws r else l | [] => [] end.
Fixpoint take_word (l : list N) : list N :=
  match l with b :: r => if is_space b then [] else b :: take_word r | [] => [] end.

(* filter/cuckoo_filter.hpp:406-429  ReadObject(file).  Line 426 is
   fin >> bucket_table.data(): with C++17 this is the formatted extraction of a
   whitespace-delimited C string into the table (std::operator>>(istream&, unsigned
   char* )), which also stores a terminating zero. *)
Definition ReadFile (file : list N) : option cuckoo :=
  let get off len := option_map le_val (read_bytes file off len) in
  opt_bind (get 0 8) (fun count =>
  opt_bind (get 8 8) (fun mk =>
  opt_bind (get 16 8) (fun sn =>
  opt_bind (get 24 8) (fun tb =>
  opt_bind (get 32 8) (fun bb =>
  opt_bind (get 40 8) (fun bn =>
  opt_bind (get 48 4) (fun vi =>
  opt_bind (get 52 4) (fun vt =>
  opt_bind (get 56 4) (fun vu =>
  let table := repeat 0 (N.to_nat (wrap64 (bb * bn))) in
  opt_bind (write_bytes table 0 (take_word (skip_ws (skipn 60 file)) ++ [0])) (fun t =>
  Some (mkCuckoo t count mk sn tb bb bn vi vt vu))))))))))).
