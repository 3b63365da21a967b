(** The parallel loops of the library: "#pragma omp parallel for" in crypto/, mpc/, pke/ and filter/. *)
From Coq Require Import NArith List Bool Arith.
From Verif.Base Require Import ListX.
From Verif.Group Require Import ECModel.
Import ListNotations.

Section Par.
Context {V : Type}.
(** an element of an array: the array and the index *)
Definition cell := (nat * nat)%type.
Definition cell_eqb (a b : cell) : bool := Nat.eqb (fst a) (fst b) && Nat.eqb (snd a) (snd b).
Definition memory := cell -> V.
Definition setm (m : memory) (c : cell) (v : V) : memory := fun x => if cell_eqb x c then v else m x.

(** the body of one iteration: it reads and writes shared elements one at a time, and computes in between on local variables *)
Inductive prog :=
| Done
| Rd (c : cell) (k : V -> prog)
| Wr (c : cell) (v : V) (p : prog).

(** one iteration alone *)
Fixpoint run (p : prog) (m : memory) : memory :=
  match p with Done => m | Rd c k => run (k (m c)) m | Wr c v p' => run p' (setm m c v) end.
(** the loop without the pragma *)
Fixpoint seqrun (ps : list prog) (m : memory) : memory :=
  match ps with [] => m | p :: ps' => seqrun ps' (run p m) end.

(** the loop with the pragma: any unfinished iteration makes its next access.  That the real threads run several iterations one
    after the other is one of these schedules.  The accesses are taken one at a time (no torn writes). *)
Definition step (st : list prog * memory) (i : nat) : list prog * memory :=
  let (ps, m) := st in
  match nth_error ps i with
  | Some (Rd c k) => (upd ps i (k (m c)), m)
  | Some (Wr c v p) => (upd ps i p, setm m c v)
  | _ => (ps, m)
  end.
Definition exec (schedule : list nat) (st : list prog * memory) : list prog * memory := fold_left step schedule st.
Definition finished (ps : list prog) : Prop := forall p, In p ps -> p = Done.

(** dst[pi(i)] = f(src_1[i], ..., src_k[i]).  With pi the identity, /repo crypto/ec_point.hpp:396-434, crypto/otp.hpp:8-11,
    crypto/aes.hpp:141-143, 184-186 (in place), mpc/ot/naor_pinkas_ot.hpp:105-110, 127-133, 167-174, 190-199, mpc/ot/alsz_ote.hpp:172-179, 251-258,
    287-292, 336-345, 390-394, 484-488, 566-571, mpc/ot/iknp_ote.hpp:162-168, 234-241, 270-274, 319-328, 373-377, mpc/oprf/ddh_oprf.hpp:126-130, 150-153, 170-174,
    mpc/oprf/ote_oprf.hpp:188-194, 201-204, mpc/psi/cwprf_psi.hpp:137-155, 191-212, mpc/pso/*.hpp, mpc/rpmt/*.hpp; with a permutation,
    mpc/oprf/ddh_oprf.hpp:93-96, mpc/peqt/peqt_from_ddh.hpp:47-50.  A body that fills several arrays is several of these one after the other;
    a value that is drawn at random is read from an array src of draws. *)
Fixpoint reads (srcs : list nat) (i : nat) (k : list V -> prog) : prog :=
  match srcs with [] => k [] | s :: r => Rd (s, i) (fun v => reads r i (fun l => k (v :: l))) end.
Definition pointwise (srcs : list nat) (dst : nat) (pi : nat -> nat) (f : list V -> V) (i : nat) : prog :=
  reads srcs i (fun l => Wr (dst, pi i) (f l) Done).
Definition pointwise_loop srcs dst pi f (n : nat) : list prog := map (pointwise srcs dst pi f) (seq 0 n).

(** /repo pke/calculate_dlog.hpp:87-97, 136-139 (BuildSlicedKeyTable): task i reads startpoint[i] and fills L items from i L on *)
Fixpoint fill (dst base : nat) (items : list V) : prog :=
  match items with [] => Done | v :: r => Wr (dst, base) v (fill dst (S base) r) end.
Definition slice (src dst L : nat) (g : V -> nat -> V) (i : nat) : prog :=
  Rd (src, i) (fun v => fill dst (i * L) (map (g v) (seq 0 L))).
Definition slice_loop src dst L g (n : nat) : list prog := map (slice src dst L g) (seq 0 n).
End Par.
Arguments prog : clear implicits.
Arguments memory : clear implicits.

(** /repo filter/bloom_filter.hpp:203-222 (PlainContain): the flag CONTAIN is cell (0, 0), and cell (1, i) says whether the bit of
    the i-th hash is set *)
Definition contain_body (i : nat) : prog bool :=
  Rd (0, 0) (fun flag : bool => if flag then Rd (1, i) (fun b : bool => if b then Done else Wr (0, 0) false Done) else Done).
Definition contain_loop (n : nat) : list (prog bool) := map contain_body (seq 0 n).

(** bits or-ed into a byte with a read and a separate write: what an iteration of /repo filter/bloom_filter.hpp:122-127 would be
    without its "omp atomic" *)
Definition or_body (mask : N) : prog N := Rd (0, 0) (fun v : N => Wr (0, 0) (N.lor v mask) Done).

(** /repo mpc/peqt/peqt_from_ddh.hpp:31-44: permutation_map[i * COLUMN_NUM + j] = row_map[i] * COLUMN_NUM + column_map[j] *)
Definition grid_map (COLUMN_NUM : nat) (row_map column_map : nat -> nat) (k : nat) : nat :=
  row_map (k / COLUMN_NUM) * COLUMN_NUM + column_map (k mod COLUMN_NUM).

(** a sequential loop inside an iteration *)
Definition each {V A : Type} (l : list A) (f : A -> prog V -> prog V) : prog V := fold_right f Done l.
(** /repo mpc/oprf/ote_oprf.hpp:217-224 (Packing): iteration t treats the rows t B, ..., t B + B - 1 of matrix_input.  Row i of
    matrix_mapping_values is array 2 i, row j of matrix_input is array 2 j + 1. *)
Definition packing_body (MATRIX_WIDTH B t : nat) : prog N :=
  each (list_prod (seq 0 MATRIX_WIDTH) (seq (t * B) B)) (fun ij k =>
    let (i, j) := ij in
    Rd (2 * i, j / 8) (fun v => Rd (2 * j + 1, i / 8) (fun w =>
    Wr (2 * j + 1, i / 8) (N.lor w (N.shiftl (N.b2n (N.testbit v (N.of_nat (j mod 8)))) (N.of_nat (i mod 8)))) k))).
Definition packing_loop (MATRIX_WIDTH B n : nat) : list (prog N) := map (packing_body MATRIX_WIDTH B) (seq 0 n).
(** /repo mpc/oprf/ote_oprf.hpp:360-366, 484-490 (matrix_mapping_values from matrix_C or matrix_A): array 3 i is the row of locations (one
    element for each), 3 i + 1 the row of the matrix, 3 i + 2 the row that is filled *)
Definition mapping_body (INPUT_NUM : nat) (max_location : N) (i : nat) : prog N :=
  each (seq 0 INPUT_NUM) (fun j k =>
    Rd (3 * i, j) (fun x => let location := N.land x max_location in
    Rd (3 * i + 1, N.to_nat (location / 8)) (fun v => Rd (3 * i + 2, j / 8) (fun w =>
    Wr (3 * i + 2, j / 8) (N.lor w (N.shiftl (N.b2n (N.testbit v (location mod 8))) (N.of_nat (j mod 8)))) k)))).
Definition mapping_loop INPUT_NUM max_location (n : nat) : list (prog N) := map (mapping_body INPUT_NUM max_location) (seq 0 n).
(** /repo mpc/oprf/ote_oprf.hpp:452-459: bits of row i of matrix_D (array 3 i + 1) are cleared *)
Definition clearing_body (INPUT_NUM : nat) (max_location : N) (i : nat) : prog N :=
  each (seq 0 INPUT_NUM) (fun j k =>
    Rd (3 * i, j) (fun x => let location := N.land x max_location in
    Rd (3 * i + 1, N.to_nat (location / 8)) (fun w =>
    Wr (3 * i + 1, N.to_nat (location / 8)) (N.clearbit w (location mod 8)) k))).
Definition clearing_loop INPUT_NUM max_location (n : nat) : list (prog N) := map (clearing_body INPUT_NUM max_location) (seq 0 n).

(** /repo pke/calculate_dlog.hpp:87-97: the j-th key a task writes, startpoint + g + ... + g.  An element of the shared arrays is a
    point (startpoint) or a key (buffer). *)
Definition table_item (G : ECGroup) (key : pt G -> N) (g : pt G) (v : pt G + N) (j : nat) : pt G + N :=
  match v with inl P => inr (key (Nat.iter j (fun Q => padd G Q g) P)) | inr k => inr k end.
(** /repo pke/calculate_dlog.hpp:136-139: startpoint is array 0, buffer array 1 *)
Definition table_loop (G : ECGroup) (key : pt G -> N) (g : pt G) (SLICED_BABYSTEP_NUM BUILD_TASK_NUM : nat) : list (prog (pt G + N)) :=
  slice_loop 0 1 SLICED_BABYSTEP_NUM (table_item G key g) BUILD_TASK_NUM.

(** bodies that fill several arrays at their own index, each from values of arrays at the same index: /repo mpc/ot/naor_pinkas_ot.hpp:105-110
    (vec_X, vec_Z), 127-133 (vec_K0, vec_K1, vec_Y0, vec_Y1), mpc/ot/alsz_ote.hpp:287-292, 566-571, mpc/oprf/ddh_oprf.hpp:126-130, 170-174,
    mpc/psi/cwprf_psi.hpp:137-141, 191-195.  An assignment is the arrays read, the array written and the function computed.
    Simplified: the vec_r[i] that naor_pinkas_ot.hpp:107 draws from OpenSSL inside the loop is taken as already stored, since a random draw is no
    function of the arrays; keys shared by all iterations (k, r_inverse, C) are inside the functions. *)
Definition assignment (V : Type) : Type := (list nat * nat * (list V -> V))%type.
Definition assigns_body {V} (l : list (assignment V)) (i : nat) : prog V :=
  each l (fun a k => let '(srcs, dst, f) := a in reads srcs i (fun vs => Wr (dst, i) (f vs) k)).
Definition assigns_loop {V} (l : list (assignment V)) (n : nat) : list (prog V) := map (assigns_body l) (seq 0 n).
