(** The binned oblivious key-value store: mpc/okvs/baxos.hpp, class [Baxos].

    Reading or writing outside an array, a failing assertion and an endless
    loop are [None]. The library is built without NDEBUG (CMakeLists.txt:22), so
    assertions are checked; the additional check of lines 322-343 computes
    values nobody reads and is not modelled. [mModVals] and [mMods] are
    indexed although only [reserve]d (lines 309-316): the model treats them as
    if they had been resized. Numbers of keys are below 2^56, so that the
    products of lines 172-173 do not wrap. *)
From Coq Require Import NArith List Bool.
From Verif Require Import Base.ListX OKVS.DivModel OKVS.SparseModel OKVS.PaxosModel.
Import ListNotations.

Definition slice {A} (l : list A) (i n : nat) : option (list A) :=
  if Nat.leb (i + n) (length l) then Some (firstn n (skipn i l)) else None.
Definition splice {A} (l : list A) (i : nat) (v : list A) : option (list A) :=
  if Nat.leb (i + length v) (length l)
  then Some (firstn i l ++ v ++ skipn (i + length v) l) else None.

(** The object: /repo mpc/okvs/baxos.hpp:18-30. The constructor (48-95) computes
    [per_bin] (item_num_per_bin), [bmsize] (sparse_size) and [bglimit]
    (g_limit) in floating point; they are arbitrary here, except that
    [item_num_per_bin] is [item_num] if there is one bin
    (mpc/okvs/okvs_utility.hpp:754-755). [per_thread] is the floating-point
    [bin_size_per_thread] of line 117 as a function of [thread_num]. *)
Record baxos := {
  items : nat; nbins : nat; bin_cap : nat; per_thread : nat -> nat;
  bwt : nat; bmsize : nat; bglimit : nat; bssp : nat; bkind : dense_kind }.

Definition per_bin (B : baxos) : nat := if Nat.ltb (nbins B) 2 then items B else bin_cap B.

(** The index type [solve] and [decode] choose:
    /repo mpc/okvs/baxos.hpp:517-536, 542-558 *)
Definition width (m : nat) : N :=
  let l := log2_ceil (N.of_nat m + 1) in
  if N.leb l 8 then 8%N else if N.leb l 16 then 16%N else if N.leb l 32 then 32%N else 64%N.

(** The OKVS of one bin: lines 103, 246-254, 374-383, 492 *)
Definition binp (B : baxos) : params :=
  {| bits := width (bmsize B); wt := bwt B; msize := bmsize B; glimit := bglimit B;
     ssp := bssp B; kind := bkind B |}.

(** [total_size]: lines 93-94 *)
Definition btotal (B : baxos) : nat :=
  bmsize B + (bglimit B + match bkind B with binary => bssp B | gf_128 => 0 end).

(** /repo mpc/okvs/baxos.hpp:349-354 [get_bin_idx], also 191-193, 215-217 *)
Definition get_bin_idx (h : N) : N :=
  N.lxor (N.lxor (N.modulo h (2 ^ 64)) (N.modulo (N.shiftr h 64) (2 ^ 64)))
         (N.modulo (N.shiftr h 96) (2 ^ 32)).

(** The part of the keys that belongs to a thread: lines 172-173, 505-506 *)
Definition t_begin (n T t : nat) : nat := Nat.div (n * t) T.
Definition t_len (n T t : nat) : nat := Nat.div (n * S t) T - t_begin n T t.

(** ** Schedules

    The threads do not read what the others write in the same parallel section.
    A section is the list of the actions of each thread; a schedule is the list
    of the threads in the order in which they act. *)
Fixpoint interleave {A} (sched : list nat) (ws : list (list A)) : option (list A) :=
  match sched with
  | [] => if forallb is_nil ws then Some [] else None
  | t :: sched =>
      match nth t ws [] with
      | [] => None
      | w :: rest => r <- interleave sched (upd ws t rest) ;; Some (w :: r)
      end
  end.

Fixpoint apply_writes {A} (ws : list (nat * A)) (mem : list A) : option (list A) :=
  match ws with
  | [] => Some mem
  | (a, v) :: ws => mem <- wr mem a v ;; apply_writes ws mem
  end.

Section Baxos.
(** AES under the key of [seed], and the blocks per value *)
Variable enc : N -> N.
Variable vl : nat.
Variable B : baxos.

(** ** solve: sorting the keys into bins *)

(** What a thread finds for a key: whether line 219 checks it, its bin, the
    value and the hash *)
Record entry := { e_check : bool; e_bin : N; e_val : N; e_hash : N }.

(** /repo mpc/okvs/baxos.hpp:181-206: 32 keys at a time while
    [i <= len - 32] in uint64_t; result: the entries and [i]. *)
Fixpoint main_loop (fuel : nat) (dv : divider) (keys values : list N) (begin len i : nat) :
  option (list entry * nat) :=
  if N.leb (N.of_nat i) (sub64 (N.of_nat len) 32) then
    match fuel with
    | O => None
    | S fuel =>
        ks <- slice keys (begin + i) 32 ;;
        let hs := set_dense enc ks in
        bs <- doMod32 (map get_bin_idx hs) dv (N.of_nat (nbins B)) ;;
        vs <- slice values (begin + i) 32 ;;
        r <- main_loop fuel dv keys values begin len (i + 32) ;;
        Some (map2 (fun b vh => {| e_check := false; e_bin := b; e_val := fst vh; e_hash := snd vh |})
                bs (combine vs hs) ++ fst r, snd r)
    end
  else Some ([], i).

(** /repo mpc/okvs/baxos.hpp:208-223 *)
Definition tail_entry (keys values : list N) (i : nat) : option entry :=
  k <- rd keys i ;;
  let h := N.lxor (enc k) k in
  v <- rd values i ;;
  Some {| e_check := true; e_bin := N.modulo (get_bin_idx h) (N.of_nat (nbins B));
          e_val := v; e_hash := h |}.

Definition thread_entries (keys values : list N) (T t : nat) : option (list entry) :=
  dv <- gen_divider divq (N.of_nat (nbins B)) ;;
  let begin := t_begin (length keys) T t in
  let len := t_len (length keys) T t in
  r <- main_loop (S (length keys)) dv keys values begin len 0 ;;
  tl <- all_some (map (tail_entry keys values) (seq (begin + snd r) (len - snd r))) ;;
  Some (fst r ++ tl).

(** The writes of a thread to the table, and its numbers of keys per bin. The
    functions of lines 138-158 take the bin as a uint8_t:
    /repo mpc/okvs/baxos.hpp:138-158, 197-205, 218-222 *)
Definition cell_addr (T t bin slot : nat) : nat :=
  Nat.modulo bin 256 * (T * per_thread B T) + t * per_thread B T + slot.

Fixpoint place (T t : nat) (es : list entry) (sizes : list nat) :
  option (list (nat * option (N * N)) * list nat) :=
  match es with
  | [] => Some ([], sizes)
  | e :: es =>
      let bin := N.to_nat (e_bin e) in
      k <- rd sizes bin ;;
      sizes <- wr sizes bin (N.to_nat (idx (width (bmsize B)) (N.of_nat (S k)))) ;;
      if e_check e && Nat.ltb (per_thread B T) k then None
      else
        r <- place T t es sizes ;;
        Some ((cell_addr T t bin k, Some (e_val e, e_hash e)) :: fst r, snd r)
  end.

Definition thread_writes (keys values : list N) (T t : nat) :=
  es <- thread_entries keys values T t ;;
  place T t es (repeat 0 (nbins B)).

(** ** solve: encoding the bins *)

(** [for (uint8_t bin_idx = thread_id; bin_idx < bin_num; bin_idx += thread_num)],
    line 237. The variable takes 256 values, so a loop that is still running
    after 256 rounds never ends. *)
Fixpoint thread_bins (fuel T b : nat) : option (list nat) :=
  match fuel with
  | O => None
  | S fuel =>
      if Nat.ltb b (nbins B) then
        r <- thread_bins fuel T (Nat.modulo (b + T) 256) ;; Some (b :: r)
      else Some []
  end.

(** Moving the entries of the other threads behind those of the first one. The
    model moves a cell, value and hash, at a time. In the code the hashes
    are moved by [memmove] and the values one by one; the target is not behind
    the source (unless a thread has more keys than fit, and then the table is
    already corrupt). /repo mpc/okvs/baxos.hpp:284-299 *)
Fixpoint move_cells (n src dst : nat) (pos : nat) (tab : list (option (N * N))) :
  option (nat * list (option (N * N))) :=
  match n with
  | O => Some (pos, tab)
  | S n =>
      c <- rd tab src ;;
      tab <- wr tab (dst + pos) c ;;
      move_cells n (S src) dst (N.to_nat (idx (width (bmsize B)) (N.of_nat (S pos)))) tab
  end.
Fixpoint gather (ts : list nat) (sizes : list (list nat)) (T b pos : nat)
  (tab : list (option (N * N))) : option (list (option (N * N))) :=
  match ts with
  | [] => Some tab
  | t :: ts =>
      n <- rd (nth t sizes []) b ;;
      r <- move_cells n (cell_addr T t b 0) (b * (T * per_thread B T)) pos tab ;;
      gather ts sizes T b (fst r) (snd r)
  end.

(** One bin: /repo mpc/okvs/baxos.hpp:237-344. [t] is what [prng] delivers while
    this bin is encoded; the threads share it. *)
Definition bin_step (sizes : list (list nat)) (T b : nat) (t : tape)
  (s : list (option (N * N)) * list N) : option (list (option (N * N)) * list N) :=
  let '(tab, out) := s in
  ns <- all_some (map (fun l => rd l b) sizes) ;;
  let n := list_sum ns in
  if Nat.ltb (per_bin B) n then None
  else
    n0 <- rd (nth 0 sizes []) b ;;
    tab <- gather (seq 1 (T - 1)) sizes T b n0 tab ;;
    cells <- slice tab (b * (T * per_thread B T)) n ;;
    vh <- all_some cells ;;
    o <- set_keys (binp B) (map snd vh) ;;
    mine <- slice out (b * btotal B) (total (binp B)) ;;
    r <- encode_into vl (binp B) o (map fst vh) mine t ;;
    out <- splice out (b * btotal B) (snd (fst r)) ;;
    Some (tab, out).

Fixpoint bin_steps (sizes : list (list nat)) (T : nat) (tapes : nat -> tape) (bs : list nat)
  (s : list (option (N * N)) * list N) : option (list (option (N * N)) * list N) :=
  match bs with
  | [] => Some s
  | b :: bs => s <- bin_step sizes T b (tapes b) s ;; bin_steps sizes T tapes bs s
  end.

(** /repo mpc/okvs/baxos.hpp:515-537 [solve] and 98-347 [impl_solve]. [out] is the
    content of [output] on entry; it is only used with several bins. A bin is
    encoded in one action: the bins use disjoint parts of the tables. *)
Definition solve (T : nat) (sched1 sched2 : list nat) (tapes : nat -> tape)
  (keys values out : list N) : option (list N) :=
  if Nat.eqb (nbins B) 1 then
    ks <- slice keys 0 (items B) ;;
    o <- set_keys (binp B) (set_dense enc ks) ;;
    r <- encode vl (binp B) o values (tapes 0) ;;
    Some (snd (fst r))
  else if Nat.eqb T 0 then None
  else
    rs <- all_some (map (thread_writes keys values T) (seq 0 T)) ;;
    ws <- interleave sched1 (map fst rs) ;;
    tab <- apply_writes ws (repeat None (nbins B * (T * per_thread B T))) ;;
    bs <- all_some (map (thread_bins 257 T) (seq 0 T)) ;;
    order <- interleave sched2 bs ;;
    r <- bin_steps (map snd rs) T tapes order (tab, out) ;;
    Some (snd r).

(** ** decode *)

(** [OKVS::decode] into a buffer: the number of keys is converted to [idx_type],
    what lies behind is left alone. /repo mpc/okvs/paxos.hpp:2332-2371 *)
Definition decode_buf (out ds buf : list N) : option (list N) :=
  if Nat.eqb (msize (binp B)) 0 then None
  else
    let n := N.to_nat (idx (bits (binp B)) (N.of_nat (length ds))) in
    a <- decode_loop vl (S n) (binp B) out (firstn n ds) ;;
    Some (a ++ skipn n buf).

(** The state of /repo mpc/okvs/baxos.hpp:368-393: for each bin the hashes
    collected so far with the positions of their keys; [value_buffer]; and the
    writes to [values] done so far *)
Definition batch : Type := list (list (N * nat)) * list N * list (nat * N).

(** Decoding what a bin has collected: lines 428-437, 456-463, 474-482 *)
Definition flush (out : list N) (b : nat) (s : batch) : option batch :=
  let '(bufs, vb, ws) := s in
  buf <- rd bufs b ;;
  o <- slice out (b * btotal B) (total (binp B)) ;;
  vb <- decode_buf o (map fst buf) vb ;;
  vs <- slice vb 0 (length buf) ;;
  bufs <- wr bufs b [] ;;
  Some (bufs, vb, ws ++ combine (map snd buf) vs).

(** One key with its bin: lines 419-438, 447-464 *)
Definition collect (ds : nat) (out : list N) (b : nat) (h : N) (i : nat) (s : batch) :
  option batch :=
  let '(bufs, vb, ws) := s in
  buf <- rd bufs b ;;
  if Nat.leb ds (length buf) then None
  else
    bufs <- wr bufs b (buf ++ [(h, i)]) ;;
    if Nat.eqb (S (length buf)) ds then flush out b (bufs, vb, ws)
    else Some (bufs, vb, ws).

Fixpoint collects (ds : nat) (out : list N) (l : list (nat * N)) (i : nat) (s : batch) :
  option batch :=
  match l with
  | [] => Some s
  | (b, h) :: l => s <- collect ds out b h i s ;; collects ds out l (S i) s
  end.

(** The keys 32 at a time, then one by one: lines 396-465 *)
Fixpoint decode_keys (fuel : nat) (ds : nat) (dv : divider) (out keys : list N) (i : nat)
  (s : batch) : option batch :=
  match fuel with
  | O => None
  | S fuel =>
      if Nat.leb 32 (length keys) then
        let hs := set_dense enc (firstn 32 keys) in
        bs <- doMod32 (map get_bin_idx hs) dv (N.of_nat (nbins B)) ;;
        s <- collects ds out (combine (map N.to_nat bs) hs) i s ;;
        decode_keys fuel ds dv out (skipn 32 keys) (i + 32) s
      else
        let hs := set_dense enc keys in
        collects ds out
          (combine (map (fun h => N.to_nat (N.modulo (get_bin_idx h) (N.of_nat (nbins B)))) hs) hs)
          i s
  end.

(** The bins that are not full: lines 469-484 *)
Fixpoint flushes (out : list N) (bs : list nat) (s : batch) : option batch :=
  match bs with
  | [] => Some s
  | b :: bs =>
      buf <- rd (fst (fst s)) b ;;
      s <- (if is_nil buf then Some s else flush out b s) ;;
      flushes out bs s
  end.

(** /repo mpc/okvs/baxos.hpp:365-485 [impl_decode_batch]: the writes to [values] *)
Definition decode_batch (out keys : list N) : option (list (nat * N)) :=
  let ds := Nat.min 512 (length keys) in
  dv <- gen_divider divq (N.of_nat (nbins B)) ;;
  s <- decode_keys (S (length keys)) ds dv out keys 0
         (repeat [] (nbins B), repeat 0%N ds, []) ;;
  s <- flushes out (seq 0 (nbins B)) s ;;
  Some (snd s).

Definition decode_thread (out keys : list N) (T t : nat) : option (list (nat * N)) :=
  let begin := t_begin (length keys) T t in
  ks <- slice keys begin (t_len (length keys) T t) ;;
  ws <- decode_batch out ks ;;
  Some (map (fun w => (begin + fst w, snd w)) ws).

(** /repo mpc/okvs/baxos.hpp:540-559 [decode] and 488-512 [impl_decode]; [vals] is
    the content of [values] on entry. *)
Definition bdecode (T : nat) (sched : list nat) (keys vals out : list N) :
  option (list N) :=
  if Nat.eqb (nbins B) 1 then
    vs <- decode_buf out (set_dense enc keys) vals ;;
    if Nat.ltb (length vals) (length keys) then None else Some vs
  else if Nat.eqb T 0 then None
  else
    wss <- all_some (map (decode_thread out keys T) (seq 0 T)) ;;
    ws <- interleave sched wss ;;
    apply_writes ws vals.
End Baxos.
