(** The oblivious key-value store: mpc/okvs/paxos.hpp, class [OKVS].

    Column and row indices are natural numbers; an [idx_type] of [b] bits can
    hold all of them, and [empty_node] (all ones) is never a column, because
    [sparse_size] is itself a value of [idx_type]. Reading or writing outside
    an array, reading [back()] of an empty vector and [throw] are [None].
    Not modelled: WriteObject/ReadObject (lines 375-549), calling [set_keys]
    twice on one object, and calling [decode_1] between [set_keys] and
    [encode] (it would count the columns of the decoded key). *)
From Coq Require Import NArith List Bool.
From Verif Require Import Base.ListX OKVS.GFModel OKVS.MatModel OKVS.SparseModel.
Import ListNotations.

Definition rd {A} (l : list A) (i : nat) : option A := nth_error l i.
Definition wr {A} (l : list A) (i : nat) (v : A) : option (list A) :=
  if Nat.ltb i (length l) then Some (upd l i v) else None.

Notation "x <- e ;; f" := (bind e (fun x => f))
  (at level 61, e at next level, right associativity).

(** A value of [value_type] is a [block] or a [BlockArrayValue], an array of
    blocks (9 in the code): the number with these blocks as its digits to base
    2^128, the first block the lowest. Its [^=] is [N.lxor], its default value
    0. Value types that are not made of whole blocks are not modelled.
    /repo mpc/okvs/okvs_utility.hpp:18-60 *)
Fixpoint of_blocks (l : list N) : N :=
  match l with
  | [] => 0%N
  | x :: l => N.lxor x (N.shiftl (of_blocks l) 128)
  end.

(** Multiplication of a value of [vl] blocks by a block, blockwise:
    /repo mpc/okvs/okvs_utility.hpp:465-506 *)
Fixpoint vmul (vl : nat) (v c : N) : N :=
  match vl with
  | O => 0%N
  | S vl => N.lxor (gf128_mul (N.modulo v (2 ^ 128)) c)
                   (N.shiftl (vmul vl (N.shiftr v 128) c) 128)
  end.

(** [DenseType]: /repo mpc/okvs/paxos.hpp:97-101 *)
Inductive dense_kind := binary | gf_128.

(** The numbers the constructor fixes: the width of [idx_type], [sparse_weight],
    [sparse_size], [g_limit] and [statistical_security_parameter]. How the
    constructor computes [sparse_size] and [g_limit] (floating point, lines
    585-620) is not modelled: they are arbitrary. *)
Record params := {
  bits : N; wt : nat; msize : nat; glimit : nat; ssp : nat; kind : dense_kind }.

(** [dense_size], a uint8_t: /repo mpc/okvs/paxos.hpp:636 *)
Definition dsize (p : params) : nat :=
  Nat.modulo (glimit p + match kind p with binary => ssp p | gf_128 => 0 end) 256.
(** [total_size]: line 637 *)
Definition total (p : params) : nat := msize p + dsize p.

(** /repo mpc/okvs/paxos.hpp:138-157 [weight_node]; [col_idx] is its position *)
Record node := mkNode { weight : nat; next : option nat; prev : option nat }.
Definition set_weight (n : node) w := mkNode w (next n) (prev n).
Definition set_next (n : node) x := mkNode (weight n) x (prev n).
Definition set_prev (n : node) x := mkNode (weight n) (next n) x.

Definition modify (nodes : list node) (c : nat) (f : node -> node) :
  option (list node) :=
  x <- rd nodes c ;; wr nodes c (f x).

(** [while (weight_set.back() == nullptr) weight_set.pop_back();]:
    /repo mpc/okvs/paxos.hpp:177-178 *)
Fixpoint trim_rev (r : list (option nat)) : option (list (option nat)) :=
  match r with
  | [] => None
  | None :: r => trim_rev r
  | Some _ :: _ => Some (rev r)
  end.
Definition trim (wset : list (option nat)) := trim_rev (rev wset).

(** The two linked structures: [weight_nodes] and [weight_set] *)
Definition lists : Type := list node * list (option nat).

(** /repo mpc/okvs/paxos.hpp:167-204 [pop]; a failing assertion of line 173 is
    [None] *)
Definition pop (s : lists) (c : nat) : option lists :=
  let '(nodes, wset) := s in
  nd <- rd nodes c ;;
  s <- (match prev nd with
        | None =>
            h <- rd wset (weight nd) ;;
            match h with
            | Some c' =>
                if Nat.eqb c' c then
                  match next nd with
                  | None => ws <- wr wset (weight nd) None ;;
                            ws <- trim ws ;; Some (nodes, ws)
                  | Some x => ws <- wr wset (weight nd) (Some x) ;;
                              nodes <- modify nodes x (fun n => set_prev n None) ;;
                              Some (nodes, ws)
                  end
                else None
            | None => None
            end
        | Some p =>
            match next nd with
            | None => nodes <- modify nodes p (fun n => set_next n None) ;;
                      Some (nodes, wset)
            | Some x => nodes <- modify nodes p (fun n => set_next n (Some x)) ;;
                        nodes <- modify nodes x (fun n => set_prev n (Some p)) ;;
                        Some (nodes, wset)
            end
        end) ;;
  let '(nodes, wset) := s in
  nodes <- modify nodes c (fun n => set_next (set_prev n None) None) ;;
  Some (nodes, wset).

(** /repo mpc/okvs/paxos.hpp:207-228 [push] *)
Definition push (s : lists) (c : nat) : option lists :=
  let '(nodes, wset) := s in
  nd <- rd nodes c ;;
  let wset := wset ++ repeat None (S (weight nd) - length wset) in
  h <- rd wset (weight nd) ;;
  match h with
  | None => ws <- wr wset (weight nd) (Some c) ;; Some (nodes, ws)
  | Some f =>
      nodes <- modify nodes f (fun n => set_prev n (Some c)) ;;
      nodes <- modify nodes c (fun n => set_next n (Some f)) ;;
      ws <- wr wset (weight nd) (Some c) ;;
      Some (nodes, ws)
  end.

(** The loop of /repo mpc/okvs/paxos.hpp:233-243 from [w] on; the loop variable
    is a uint8_t, [weight_set] has at most 200 entries (line 581). *)
Fixpoint first_list (l : list (option nat)) : option nat :=
  match l with
  | [] => None
  | Some c :: _ => Some c
  | None :: l => first_list l
  end.

(** /repo mpc/okvs/paxos.hpp:231-245 [find_pop_min_node] *)
Definition find_pop_min_node (s : lists) : option (nat * lists) :=
  match first_list (tl (snd s)) with
  | None => Some (O, s)
  | Some c =>
      s <- pop s c ;;
      nodes <- modify (fst s) c (fun n => set_weight n 0) ;;
      Some (c, (nodes, snd s))
  end.

(** ** Building the matrix *)

(** [h_sparse], row by row, in groups of 32:
    /repo mpc/okvs/paxos.hpp:1153-1183 [set_Mtx], 1054-1089 [set_sparse] *)
Fixpoint set_rows (fuel : nat) (p : params) (dense : list N) :
  option (list (list nat)) :=
  match fuel with
  | O => None
  | S fuel =>
      if Nat.leb 32 (length dense) then
        r <- set_sparse_32 (bits p) (wt p) (N.of_nat (msize p)) (firstn 32 dense) ;;
        t <- set_rows fuel p (skipn 32 dense) ;;
        Some (map (map N.to_nat) r ++ t)
      else
        r <- all_some (map (set_sparse_1 (bits p) (wt p) (N.of_nat (msize p))) dense) ;;
        Some (map (map N.to_nat) r)
  end.

(** [col_weights[...]++]: /repo mpc/okvs/paxos.hpp:879-924, 985-991, 1017-1018,
    1039-1040; the increment wraps in [idx_type]. *)
Fixpoint count_cols (p : params) (cols : list nat) (cw : list nat) :
  option (list nat) :=
  match cols with
  | [] => Some cw
  | c :: cols =>
      x <- rd cw c ;;
      cw <- wr cw c (N.to_nat (idx (bits p) (N.of_nat (S x)))) ;;
      count_cols p cols cw
  end.

(** One column of /repo mpc/okvs/paxos.hpp:1099-1124 *)
Definition statistic_step (nodes : list node) (wset : list (option nat))
  (w : nat) : option lists :=
  let col := length nodes in
  let nodes := nodes ++ [mkNode (Nat.modulo w 256) None None] in
  h <- rd wset w ;;
  nodes <- match h with
           | None => Some nodes
           | Some f =>
               nodes <- modify nodes f (fun n => set_prev n (Some col)) ;;
               modify nodes col (fun n => set_next n (Some f))
           end ;;
  ws <- wr wset w (Some col) ;;
  Some (nodes, ws).

Fixpoint statistic_loop (cw : list nat) (begin mx : nat) (begins : list nat)
  (s : lists) : option (list nat * nat * lists) :=
  match cw with
  | [] => Some (begins, mx, s)
  | w :: cw =>
      s <- statistic_step (fst s) (snd s) w ;;
      statistic_loop cw (begin + w) (Nat.max mx w) (begins ++ [begin]) s
  end.

(** /repo mpc/okvs/paxos.hpp:1092-1131 [weight_statistic]; [weight_set] has 200
    entries, all null, before (line 581). *)
Definition weight_statistic (cw : list nat) : option (list nat * lists) :=
  r <- statistic_loop cw 0 0 [] ([], repeat None 200) ;;
  let '(begins, mx, (nodes, wset)) := r in
  Some (begins, (nodes, firstn (S mx) wset)).

(** One row of /repo mpc/okvs/paxos.hpp:1141-1149 *)
Fixpoint hcols_row (begins : list nat) (row : nat) (cols : list nat)
  (s : list nat * list nat) : option (list nat * list nat) :=
  match cols with
  | [] => Some s
  | c :: cols =>
      let '(view, now) := s in
      k <- rd now c ;;
      b <- rd begins c ;;
      view <- wr view (b + k) row ;;
      now <- wr now c (Nat.modulo (S k) 256) ;;
      hcols_row begins row cols (view, now)
  end.

Fixpoint hcols_rows (begins : list nat) (row : nat) (rows : list (list nat))
  (s : list nat * list nat) : option (list nat * list nat) :=
  match rows with
  | [] => Some s
  | r :: rows => s <- hcols_row begins row r s ;; hcols_rows begins (S row) rows s
  end.

(** /repo mpc/okvs/paxos.hpp:1134-1150 [init_hcols]; the storage of [h_cols]
    holds one entry per entry of [h_sparse] (line 562). *)
Definition init_hcols (p : params) (begins : list nat) (rows : list (list nat)) :
  option (list nat) :=
  s <- hcols_rows begins 0 rows
         (repeat 0 (length rows * wt p), repeat 0 (msize p)) ;;
  Some (fst s).

(** The object after [set_keys] *)
Record okvs := {
  rows : list (list nat);          (* h_sparse *)
  dense : list N;                  (* h_dense *)
  colw : list nat;                 (* col_weights *)
  begins : list nat;               (* h_cols, row_begin *)
  view : list nat;                 (* h_cols, mView *)
  lsts : lists;                    (* weight_nodes, weight_set *)
  tri_rows : list nat; tri_cols : list nat;      (* triangular_c_rows/cols *)
  gap_rows : list nat; gap_first : list nat;     (* gap_rows, gap_rows_first_row *)
  gap_cols : list N;
  fc : list (list nat);            (* FC_1 *)
  emat : list (list N) }.          (* E_ or E_gf128 *)

(** /repo mpc/okvs/paxos.hpp:1186-1208 [set_keys], from the hashed keys on *)
Definition set_keys (p : params) (dense : list N) : option okvs :=
  rows <- set_rows (S (length dense)) p dense ;;
  cw <- count_cols p (concat rows) (repeat 0 (msize p)) ;;
  bs <- weight_statistic cw ;;
  view <- init_hcols p (fst bs) rows ;;
  Some {| rows := rows; dense := dense; colw := cw; begins := fst bs;
          view := view; lsts := snd bs;
          tri_rows := []; tri_cols := []; gap_rows := []; gap_first := [];
          gap_cols := []; fc := []; emat := [] |}.

(** ** Triangulation *)

(** The columns of a row are moved to the list of their new weight:
    /repo mpc/okvs/paxos.hpp:1852-1865 *)
Fixpoint lower_cols (cols : list nat) (s : lists) : option lists :=
  match cols with
  | [] => Some s
  | c :: cols =>
      nd <- rd (fst s) c ;;
      s <- (if Nat.eqb (weight nd) 0 then Some s
            else s <- pop s c ;;
                 nodes <- modify (fst s) c (fun n => set_weight n (weight n - 1)) ;;
                 push (nodes, snd s) c) ;;
      lower_cols cols s
  end.

Record tri := {
  t_sign : list bool; t_lists : lists;
  t_rows : list nat; t_cols : list nat; t_gap : list nat; t_gap_first : list nat }.

(** The rows of a column: /repo mpc/okvs/paxos.hpp:1841-1891 *)
Fixpoint column_rows (rows : list (list nat)) (dense : list N) (min : nat)
  (l : list nat) (first : bool) (t : tri) : option tri :=
  match l with
  | [] => Some t
  | r :: l =>
      sg <- rd (t_sign t) r ;;
      if sg then column_rows rows dense min l first t
      else
        sign <- wr (t_sign t) r true ;;
        cols <- rd rows r ;;
        s <- lower_cols cols (t_lists t) ;;
        if first then
          column_rows rows dense min l false
            {| t_sign := sign; t_lists := s;
               t_rows := t_rows t ++ [r]; t_cols := t_cols t ++ [min];
               t_gap := t_gap t; t_gap_first := t_gap_first t |}
        else
          let f := last (t_rows t) 0 in
          d <- rd dense r ;;
          df <- rd dense f ;;
          if N.eqb d df then None
          else column_rows rows dense min l false
                 {| t_sign := sign; t_lists := s;
                    t_rows := t_rows t; t_cols := t_cols t;
                    t_gap := t_gap t ++ [r]; t_gap_first := t_gap_first t ++ [f] |}
  end.

(** The part of [h_cols] that belongs to a column: lines 1837-1838 *)
Definition column (o : okvs) (c : nat) : option (list nat) :=
  b <- rd (begins o) c ;;
  w <- rd (colw o) c ;;
  if Nat.leb (b + w) (length (view o)) then Some (firstn w (skipn b (view o)))
  else None.

Fixpoint tri_loop (fuel : nat) (o : okvs) (t : tri) : option tri :=
  if Nat.ltb 1 (length (snd (t_lists t))) then
    match fuel with
    | O => None
    | S fuel =>
        r <- find_pop_min_node (t_lists t) ;;
        let '(min, s) := r in
        l <- column o min ;;
        t <- column_rows (rows o) (dense o) min l true
               {| t_sign := t_sign t; t_lists := s; t_rows := t_rows t;
                  t_cols := t_cols t; t_gap := t_gap t;
                  t_gap_first := t_gap_first t |} ;;
        tri_loop fuel o t
    end
  else Some t.

(** /repo mpc/okvs/paxos.hpp:1814-1894 [triangulate]. The loop ends after at
    most [sparse_size] rounds (proved); before that the fuel does not run
    out. *)
Definition triangulate (p : params) (o : okvs) : option okvs :=
  t <- tri_loop (S (msize p)) o
         {| t_sign := repeat false (length (rows o)); t_lists := lsts o;
            t_rows := tri_rows o; t_cols := tri_cols o;
            t_gap := gap_rows o; t_gap_first := gap_first o |} ;;
  Some {| rows := rows o; dense := dense o; colw := colw o; begins := begins o;
          view := view o; lsts := t_lists t;
          tri_rows := t_rows t; tri_cols := t_cols t;
          gap_rows := t_gap t; gap_first := t_gap_first t;
          gap_cols := gap_cols o; fc := fc o; emat := emat o |}.

(** ** F C^{-1} *)

(** [std::set<idx_type, std::greater>]: a decreasing list without repetition;
    [find] and then [erase] or [insert]: lines 1262-1266. *)
Fixpoint toggle (x : nat) (l : list nat) : list nat :=
  match l with
  | [] => [x]
  | y :: l' => if Nat.eqb x y then l'
               else if Nat.ltb y x then x :: l
               else y :: toggle x l'
  end.
Fixpoint set_insert (x : nat) (l : list nat) : list nat :=
  match l with
  | [] => [x]
  | y :: l' => if Nat.eqb x y then l
               else if Nat.ltb y x then x :: l
               else y :: set_insert x l'
  end.

(** The entries of a row through [colPermutation]; [None] in the list is
    [empty_node]. *)
Fixpoint permuted (perm : list (option nat)) (f : nat -> list nat -> list nat)
  (cols : list nat) (acc : list nat) : option (list nat) :=
  match cols with
  | [] => Some acc
  | c :: cols =>
      x <- rd perm c ;;
      permuted perm f cols (match x with None => acc | Some j => f j acc end)
  end.

(** /repo mpc/okvs/paxos.hpp:1232-1233 *)
Fixpoint permutation (k : nat) (tcols : list nat) (j : nat)
  (perm : list (option nat)) : option (list (option nat)) :=
  match k with
  | O => Some perm
  | S k =>
      c <- rd tcols (length tcols - j - 1) ;;
      perm <- wr perm c (Some j) ;;
      permutation k tcols (S j) perm
  end.

(** /repo mpc/okvs/paxos.hpp:1243-1269 *)
Fixpoint eliminate_loop (fuel : nat) (o : okvs) (perm : list (option nat))
  (F : list nat) (acc : list nat) : option (list nat) :=
  match F with
  | [] => Some acc
  | j :: _ =>
      match fuel with
      | O => None
      | S fuel =>
          r <- rd (tri_rows o) (length (tri_rows o) - j - 1) ;;
          cols <- rd (rows o) r ;;
          F <- permuted perm toggle cols F ;;
          eliminate_loop fuel o perm F (acc ++ [r])
      end
  end.

Fixpoint list_eqb (a b : list nat) : bool :=
  match a, b with
  | [], [] => true
  | x :: a, y :: b => Nat.eqb x y && list_eqb a b
  | _, _ => false
  end.

(** One gap row: /repo mpc/okvs/paxos.hpp:1218-1271; [acc] is what [FC_1[i]]
    already holds. *)
Definition fc_row (p : params) (o : okvs) (i : nat) (acc : list nat) :
  option (list nat) :=
  g0 <- rd (gap_rows o) i ;;
  g1 <- rd (gap_first o) i ;;
  r0 <- rd (rows o) g0 ;;
  r1 <- rd (rows o) g1 ;;
  if list_eqb r0 r1 then Some (acc ++ [g1])
  else
    perm <- permutation (length (tri_rows o)) (tri_cols o) 0 (repeat None (total p)) ;;
    F <- permuted perm set_insert r0 [] ;;
    eliminate_loop (S (length (tri_rows o))) o perm F acc.

(** /repo mpc/okvs/paxos.hpp:1211-1272 [get_FC_1]: [FC_1] is resized, not
    cleared. *)
Definition get_FC_1 (p : params) (o : okvs) (g : nat) : option (list (list nat)) :=
  let fc0 := firstn g (fc o) ++ repeat [] (g - length (fc o)) in
  all_some (map (fun i => fc_row p o i (nth i fc0 [])) (seq 0 g)).

(** ** Backfilling *)

(** [PRG::Seed *prng]: the blocks it will still deliver, or the null pointer.
    [GenRandomBlocks] of n blocks takes the next n. *)
Definition tape := option (nat -> N).
Definition draw (t : nat -> N) (n : nat) : list N * (nat -> N) :=
  (map t (seq 0 n), fun i => t (n + i)).

Section Values.
(** [sizeof(value_type) / sizeof(block)] *)
Variable vl : nat.

(** The [value_type] at block [i] of a buffer *)
Definition value_at (blocks : list N) (i : nat) : option N :=
  if Nat.leb (i + vl) (length blocks)
  then Some (of_blocks (firstn (vl) (skipn i blocks))) else None.

(** The columns of weight 0 get random values, 8 at a time:
    /repo mpc/okvs/paxos.hpp:1911-1931 *)
Fixpoint zero_walk (fuel : nat) (nodes : list node) (c remain : nat)
  (blocks : list N) (out : list N) (t : nat -> N) :
  option (list N * (nat -> N)) :=
  match fuel with
  | O => None
  | S fuel =>
      match remain with
      | O => let '(blocks, t) := draw t (8 * vl) in
             zero_walk fuel nodes c 8 blocks out t
      | S r =>
          v <- value_at blocks (r * vl) ;;
          out <- wr out c v ;;
          nd <- rd nodes c ;;
          match next nd with
          | None => Some (out, t)
          | Some x => zero_walk fuel nodes x r blocks out t
          end
      end
  end.

(** /repo mpc/okvs/paxos.hpp:1909-1943; [weight_0_list] is empty (it is filled
    by WriteObject/ReadObject only). *)
Definition zero_fill (o : okvs) (out : list N) (t : nat -> N) :
  option (list N * (nat -> N)) :=
  h <- rd (snd (lsts o)) 0 ;;
  match h with
  | None => Some (out, t)
  | Some c => zero_walk (S (2 * length (fst (lsts o)))) (fst (lsts o)) c 0 [] out t
  end.

Definition vsum (l : list N) : N := fold_right (N.lxor) 0%N l.

(** [temp ^= output[...]] for a list of columns *)
Fixpoint add_cols (out : list N) (cols : list nat) (acc : N) : option N :=
  match cols with
  | [] => Some acc
  | c :: cols => v <- rd out c ;; add_cols out cols (N.lxor acc v)
  end.

(** Bit [i] of the dense part of a row, read bytewise or from the low 64 bits:
    /repo mpc/okvs/paxos.hpp:1563-1584, 1750-1783, 1992-2014. The loops that run
    over all bytes (1630-1667, 1755-1771) visit [i / 8], [i mod 8] for every
    [i < dense_size]. More than 128 dense columns would be read behind the
    block; this is [None] where the functions start. *)
Definition bit_byte (d : N) (i : nat) : bool :=
  N.testbit (N.modulo (N.shiftr d (8 * N.of_nat (Nat.div i 8))) 256)
            (N.of_nat (Nat.modulo i 8)).
Definition bit_low64 (d : N) (i : nat) : bool :=
  N.testbit (N.modulo d (2 ^ 64)) (N.of_nat i).
Definition dense_bit (p : params) (d : N) (i : nat) : bool :=
  if Nat.ltb 64 (dsize p) then bit_byte d i else bit_low64 d i.
(** The same with the test of line 1625 *)
Definition dense_bit' (p : params) (d : N) (i : nat) : bool :=
  if Nat.leb 64 (dsize p) then bit_byte d i else bit_low64 d i.

(** [temp ^= output[sparse_size + i]] for the set bits among [cols] *)
Fixpoint add_bits (bit : nat -> bool) (m : nat) (out : list N)
  (cols : list nat) (acc : N) : option N :=
  match cols with
  | [] => Some acc
  | i :: cols =>
      v <- rd out (m + i) ;;
      add_bits bit m out cols (if bit i then N.lxor acc v else acc)
  end.

(** The powers d, d^2, ..., by repeated multiplication:
    /repo mpc/okvs/paxos.hpp:1416-1423, 1500-1507, 2018-2026 *)
Fixpoint powers (k : nat) (d cur : N) : list N :=
  match k with
  | O => []
  | S k => cur :: powers k d (gf128_mul cur d)
  end.

(** [temp ^= gf128_mul(output[sparse_size + j], d^(j+1))] *)
Fixpoint add_powers (m : nat) (out : list N) (j : nat) (ds : list N)
  (acc : N) : option N :=
  match ds with
  | [] => Some acc
  | d :: ds =>
      v <- rd out (m + j) ;;
      add_powers m out (S j) ds (N.lxor acc (vmul vl v d))
  end.

(** Values of the gap rows with those of [FC_1[i]] added:
    /repo mpc/okvs/paxos.hpp:1455-1462, 1612-1620 *)
Fixpoint add_all (values : list N) (l : list nat) (acc : N) : option N :=
  match l with
  | [] => Some acc
  | j :: l => v <- rd values j ;; add_all values l (N.lxor acc v)
  end.
Definition gap_value (o : okvs) (fc : list (list nat)) (values : list N)
  (i : nat) : option N :=
  r <- rd (gap_rows o) i ;;
  v <- rd values r ;;
  add_all values (nth i fc []) v.

(** [dense ^ FC_1-dense] of a gap row: lines 1536-1539, 1639-1642 *)
Fixpoint xor_dense (dense : list N) (l : list nat) (acc : N) : option N :=
  match l with
  | [] => Some acc
  | j :: l => d <- rd dense j ;; xor_dense dense l (N.lxor acc d)
  end.
Definition gap_dense (o : okvs) (fc : list (list nat)) (i : nat) : option N :=
  r <- rd (gap_rows o) i ;;
  d <- rd (dense o) r ;;
  xor_dense (dense o) (nth i fc []) d.

(** *** Binary *)

(** The loop of /repo mpc/okvs/paxos.hpp:1556-1589. There are at most
    2^dense_size combinations, so the bound [n] on the rounds is never
    reached; it is a binary number so that the model can be run. *)
Definition combination_step (p : params) (erow : list N) (comb : list N) :
  list N + option (list N * list (list N)) :=
  match prev_combination comb (N.of_nat (dsize p)) with
  | None => inr None
  | Some comb =>
      let E := map (fun d => map (fun c => N.b2n (dense_bit p d (N.to_nat c))) comb) erow in
      match check_invert E with
      | Some inv => inr (Some (comb, inv))
      | None => inl comb
      end
  end.

Fixpoint repeat_pos {A B} (n : positive) (f : A -> A + B) (a : A) : A + B :=
  match n with
  | xH => f a
  | xO n => match repeat_pos n f a with inr b => inr b | inl a => repeat_pos n f a end
  | xI n => match f a with
            | inr b => inr b
            | inl a =>
                match repeat_pos n f a with inr b => inr b | inl a => repeat_pos n f a end
            end
  end.

Definition find_combination (p : params) (erow : list N) :
  option (list N * list (list N)) :=
  match repeat_pos (2 ^ Pos.of_nat (S (dsize p))) (combination_step p erow)
          (map N.of_nat (seq 0 (length erow))) with
  | inl _ => None
  | inr r => r
  end.

Definition is_gap_col (gc : list N) (i : nat) : bool := existsb (N.eqb (N.of_nat i)) gc.

(** The unselected dense columns get random values: lines 1597-1608 *)
Fixpoint random_dense (m : nat) (gc : list N) (cols : list nat) (iter : nat)
  (blocks : list N) (out : list N) : option (list N) :=
  match cols with
  | [] => Some out
  | i :: cols =>
      if is_gap_col gc i then random_dense m gc cols iter blocks out
      else
        v <- value_at blocks iter ;;
        out <- wr out (m + i) v ;;
        random_dense m gc cols (S iter) blocks out
  end.

(** All dense columns get random values, [value_at] the i-th value of the drawn
    blocks: lines 1475-1477, 1706-1714 *)
Fixpoint random_all (m : nat) (cols : list nat) (blocks : list N)
  (out : list N) : option (list N) :=
  match cols with
  | [] => Some out
  | i :: cols =>
      v <- value_at blocks (i * vl) ;;
      out <- wr out (m + i) v ;;
      random_all m cols blocks out
  end.

(** [output[sparse_size + c] ^= ...] for the columns [cs]: lines 1464-1471,
    1693-1701 *)
Fixpoint add_outputs (m : nat) (cs : list nat) (vs : list N)
  (out : list N) : option (list N) :=
  match cs, vs with
  | c :: cs, v :: vs =>
      x <- rd out (m + c) ;;
      out <- wr out (m + c) (N.lxor x v) ;;
      add_outputs m cs vs out
  | _, _ => Some out
  end.

(** The solution [E'^{-1} V'] *)
Definition times_bits (E : list (list N)) (vs : list N) : list N :=
  map (fun r => vsum (map2 (fun e v => if N.eqb e 0 then 0%N else v) r vs)) E.
Definition times_gf (E : list (list N)) (vs : list N) : list N :=
  map (fun r => vsum (map2 (fun e v => vmul vl v e) r vs)) E.

(** The gap rows: /repo mpc/okvs/paxos.hpp:1520-1702. Result: [gap_cols],
    [FC_1], [E_], the output and the tape. *)
Definition solve_binary (p : params) (o : okvs) (g : nat) (values out : list N)
  (t : tape) :
  option (list N * list (list nat) * list (list N) * list N * tape) :=
  if Nat.ltb (glimit p) g then None
  else
    fc <- get_FC_1 p o g ;;
    erow <- all_some (map (gap_dense o fc) (seq 0 g)) ;;
    ce <- find_combination p erow ;;
    let '(gc, E) := ce in
    r <- match t with
         | None => Some (out, None)
         | Some t =>
             let '(blocks, t) := draw t (dsize p - g) in
             out <- random_dense (msize p) gc (seq 0 (dsize p)) 0 blocks out ;;
             Some (out, Some t)
         end ;;
    let '(out, t) := r in
    vs <- all_some (map (gap_value o fc values) (seq 0 g)) ;;
    vs <- match t with
          | None => Some vs
          | Some _ =>
              all_some (map (fun i =>
                d <- gap_dense o fc i ;;
                add_bits (fun c => dense_bit' p d c) (msize p) out
                  (filter (fun c => negb (is_gap_col gc c)) (seq 0 (dsize p)))
                  (nth i vs 0%N)) (seq 0 g))
          end ;;
    out <- add_outputs (msize p) (map N.to_nat gc) (times_bits E vs) out ;;
    Some (gc, fc, E, out, t).

(** The dense part of a row during backfilling: lines 1748-1807 *)
Definition dense_part_binary (p : params) (gc : list N) (t : tape) (d : N)
  (out : list N) (acc : N) : option N :=
  add_bits (dense_bit p d) (msize p) out
    (match t with Some _ => seq 0 (dsize p) | None => map N.to_nat gc end) acc.

(** *** GF(2^128) *)

(** Rows of [E_gf128]: [resize] keeps the old rows (line 1412); entries
    [0 .. len-1] are then overwritten (1414-1436). *)
Definition write_prefix (old new : list N) : option (list N) :=
  if Nat.leb (length new) (length old) then Some (new ++ skipn (length new) old)
  else None.

Fixpoint xor_powers (dense : list N) (len : nat) (l : list nat) (acc : list N) :
  option (list N) :=
  match l with
  | [] => Some acc
  | j :: l =>
      d <- rd dense j ;;
      xor_powers dense len l (map2 N.lxor acc (powers len d d))
  end.

Definition gap_powers (o : okvs) (fc : list (list nat)) (len i : nat) :
  option (list N) :=
  r <- rd (gap_rows o) i ;;
  d <- rd (dense o) r ;;
  xor_powers (dense o) len (nth i fc []) (powers len d d).

(** The random rows of [E_gf128]: lines 1442-1446 *)
Fixpoint random_rows (k len : nat) (t : nat -> N) : list (list N) * (nat -> N) :=
  match k with
  | O => ([], t)
  | S k => let '(r, t) := draw t len in
           let '(rs, t) := random_rows k len t in (r :: rs, t)
  end.

(** /repo mpc/okvs/paxos.hpp:1403-1472 and 1279-1348 *)
Definition solve_gf (p : params) (o : okvs) (g : nat) (values out : list N)
  (t : tape) :
  option (list (list nat) * list (list N) * list N * tape) :=
  if Nat.ltb (glimit p) g then None
  else
    fc <- get_FC_1 p o g ;;
    let len := match t with Some _ => dsize p | None => g end in
    let E0 := firstn len (emat o) ++ repeat (repeat 0%N len) (len - length (emat o)) in
    if Nat.ltb len g then None
    else
      top <- all_some (map (fun i =>
               pw <- gap_powers o fc len i ;; write_prefix (nth i E0 []) pw)
               (seq 0 g)) ;;
      r <- match t with
           | None => Some (top, [], None)
           | Some t =>
               let '(blocks, t) := draw t ((dsize p - g) * vl) in
               let '(rest, t) := random_rows (dsize p - g) (dsize p) t in
               rv <- all_some (map (fun i => value_at blocks (i * vl))
                                   (seq 0 (dsize p - g))) ;;
               Some (top ++ rest, rv, Some t)
           end ;;
      let '(E, rv, t) := r in
      E <- check_invert_gf128 E ;;
      vs <- all_some (map (gap_value o fc values) (seq 0 g)) ;;
      out <- add_outputs (msize p) (seq 0 len) (times_gf E (vs ++ rv)) out ;;
      Some (fc, E, out, t).

(** lines 1498-1508; [output[sparse_size]] is read even if there is no dense
    column *)
Definition dense_part_gf (p : params) (g : nat) (t : tape) (d : N)
  (out : list N) (acc : N) : option N :=
  if Nat.eqb g 0 && match t with None => true | Some _ => false end
  then Some acc
  else add_powers (msize p) out 0 (powers (Nat.max 1 (dsize p)) d d) acc.

(** *** The triangular part *)

(** /repo mpc/okvs/paxos.hpp:1721-1810 and 1484-1511: the rows of the triangle,
    the last one first. *)
Fixpoint triangle (o : okvs) (part : N -> list N -> N -> option N)
  (values : list N) (iter : nat) (out : list N) : option (list N) :=
  match iter with
  | O => Some out
  | S iter =>
      row <- rd (tri_rows o) iter ;;
      col <- rd (tri_cols o) iter ;;
      v <- rd values row ;;
      cols <- rd (rows o) row ;;
      v <- add_cols out cols v ;;
      d <- rd (dense o) row ;;
      v <- part d out v ;;
      out <- wr out col v ;;
      triangle o part values iter out
  end.

Definition with_solution (o : okvs) gc fc E : okvs :=
  {| rows := rows o; dense := dense o; colw := colw o; begins := begins o;
     view := view o; lsts := lsts o; tri_rows := tri_rows o;
     tri_cols := tri_cols o; gap_rows := gap_rows o; gap_first := gap_first o;
     gap_cols := gc; fc := fc; emat := E |}.

(** [uint8_t g = gap_rows.size()] *)
Definition gap_count (o : okvs) : nat := Nat.modulo (length (gap_rows o)) 256.

Definition is_nil {A} (l : list A) : bool := match l with [] => true | _ => false end.

(** /repo mpc/okvs/paxos.hpp:1514-1811 [backfill_binary]; [delta] is
    [item_num - g] *)
Definition backfill_binary (p : params) (o : okvs) (values out : list N)
  (t : tape) : option (okvs * list N * tape) :=
  let g := gap_count o in
  if Nat.ltb 128 (dsize p) then None
  else
    r <- (if negb (Nat.eqb g 0) && is_nil (gap_cols o) then
            s <- solve_binary p o g values out t ;;
            let '(gc, fc, E, out, t) := s in Some (with_solution o gc fc E, out, t)
          else match t with
               | None => Some (o, out, t)
               | Some t =>
                   let '(blocks, t) := draw t (dsize p) in
                   out <- random_all (msize p) (seq 0 (dsize p)) blocks out ;;
                   Some (o, out, Some t)
               end) ;;
    let '(o, out, t) := r in
    if Nat.ltb (length (rows o)) g then None
    else
      out <- triangle o (dense_part_binary p (gap_cols o) t) values
               (length (rows o) - g) out ;;
      Some (o, out, t).

(** /repo mpc/okvs/paxos.hpp:1400-1512 [backfill_gf128] and, for arrays of
    blocks, 1275-1388 [backfill_BlockArrayValue128]: the same function. *)
Definition backfill_gf128 (p : params) (o : okvs) (values out : list N)
  (t : tape) : option (okvs * list N * tape) :=
  let g := gap_count o in
  r <- (if negb (Nat.eqb g 0) && is_nil (gap_cols o) then
          s <- solve_gf p o g values out t ;;
          let '(fc, E, out, t) := s in Some (with_solution o (gap_cols o) fc E, out, t)
        else match t with
             | None => Some (o, out, t)
             | Some t =>
                 let '(blocks, t) := draw t (dsize p * vl) in
                 out <- random_all (msize p) (seq 0 (dsize p)) blocks out ;;
                 Some (o, out, Some t)
             end) ;;
  let '(o, out, t) := r in
  out <- triangle o (dense_part_gf p g t) values (length (tri_rows o)) out ;;
  Some (o, out, t).

(** /repo mpc/okvs/paxos.hpp:1897-1955 [encode] into an existing output *)
Definition encode_into (p : params) (o : okvs) (values out : list N)
  (t : tape) : option (okvs * list N * tape) :=
  o <- (if is_nil (tri_rows o) then triangulate p o else Some o) ;;
  r <- match t with
       | None => Some (out, None)
       | Some t => r <- zero_fill o out t ;; Some (fst r, Some (snd r))
       end ;;
  let '(out, t) := r in
  match kind p with
  | binary => backfill_binary p o values out t
  | gf_128 => backfill_gf128 p o values out t
  end.

(** /repo mpc/okvs/paxos.hpp:2030-2036 [encode] *)
Definition encode (p : params) (o : okvs) (values : list N) (t : tape) :
  option (okvs * list N * tape) :=
  encode_into p o values (repeat 0%N (total p)) t.

(** ** Decoding *)

(** The dense part: /repo mpc/okvs/paxos.hpp:1990-2027 *)
Definition decode_dense (p : params) (d : N) (out : list N) (acc : N) :
  option N :=
  match kind p with
  | binary =>
      if Nat.ltb 128 (dsize p) then None
      else add_bits (dense_bit p d) (msize p) out (seq 0 (dsize p)) acc
  | gf_128 => add_powers (msize p) out 0 (powers (dsize p) d d) acc
  end.

(** The sparse part: lines 1984-1988, 2073-2141 *)
Definition decode_row (p : params) (out : list N) (d : N) (row : list N) :
  option N :=
  match map N.to_nat row with
  | [] => None
  | c :: cols => v <- rd out c ;;
                 v <- add_cols out cols v ;;
                 decode_dense p d out v
  end.

(** /repo mpc/okvs/paxos.hpp:1964-2028 [decode_1], from the hashed key on *)
Definition decode_1 (p : params) (out : list N) (d : N) : option N :=
  row <- set_sparse_1 (bits p) (wt p) (N.of_nat (msize p)) d ;;
  decode_row p out d row.

(** /repo mpc/okvs/paxos.hpp:2054-2329 [decode_32]: the 32 lanes are treated
    alike, in the order of the scalar code. In the binary branch for up to 64
    columns the low word is shifted instead of indexed (2203-2251). *)
Definition decode_dense_32 (p : params) (d : N) (out : list N) (acc : N) :
  option N :=
  match kind p with
  | binary =>
      if Nat.ltb 128 (dsize p) then None
      else if Nat.ltb 64 (dsize p)
           then add_bits (bit_byte d) (msize p) out (seq 0 (dsize p)) acc
           else add_bits (fun i => N.odd (N.shiftr (N.modulo d (2 ^ 64)) (N.of_nat i)))
                  (msize p) out (seq 0 (dsize p)) acc
  | gf_128 => add_powers (msize p) out 0 (powers (dsize p) d d) acc
  end.
Definition decode_row_32 (p : params) (out : list N) (d : N) (row : list N) :
  option N :=
  match map N.to_nat row with
  | [] => None
  | c :: cols => v <- rd out c ;;
                 v <- add_cols out cols v ;;
                 decode_dense_32 p d out v
  end.
Definition decode_32 (p : params) (out : list N) (ds : list N) :
  option (list N) :=
  rows <- set_sparse_32 (bits p) (wt p) (N.of_nat (msize p)) ds ;;
  all_some (map2 (decode_row_32 p out) ds rows).

(** /repo mpc/okvs/paxos.hpp:2332-2371 [decode] of the hashed keys. [key_num]
    is an [idx_type]: the number of keys is converted to it. *)
Fixpoint decode_loop (fuel : nat) (p : params) (out : list N) (ds : list N) :
  option (list N) :=
  match fuel with
  | O => None
  | S fuel =>
      if Nat.leb 32 (length ds) then
        a <- decode_32 p out (firstn 32 ds) ;;
        b <- decode_loop fuel p out (skipn 32 ds) ;;
        Some (a ++ b)
      else all_some (map (decode_1 p out) ds)
  end.

Definition decode (p : params) (out : list N) (ds : list N) :
  option (list N) :=
  if Nat.eqb (msize p) 0 then None
  else
    let n := N.to_nat (idx (bits p) (N.of_nat (length ds))) in
    a <- decode_loop (S n) p out (firstn n ds) ;;
    Some (a ++ repeat 0%N (length ds - n)).
End Values.

(** /repo mpc/okvs/paxos.hpp:651-676 [set_dense]: the hashed keys. [enc] is
    the AES encryption of a block under the key of the seed. *)
Definition set_dense (enc : N -> N) (keys : list N) : list N :=
  map (fun k => N.lxor (enc k) k) keys.
