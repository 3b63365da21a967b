(** Files of the oblivious key-value store: mpc/okvs/paxos.hpp, WriteObject and ReadObject,
    and [encode] of an object that was read.

    The stream operators are those of utility/serialization.hpp (visible by its
    using-directive at file scope): raw bytes, the lowest first. [None]: reading or
    writing outside an array, an int loop counter that overflows, or (simplified) a
    file that is too short. *)
From Coq Require Import NArith List Bool.
From Verif Require Import Base.Words Base.ListX OKVS.PaxosModel.
Import ListNotations.

(** The members of class OKVS that the two functions touch: [item_num], the sizes,
    the state, [weight_0_list]. The seed is not written. *)
Record obj := { items : nat; par : params; st : okvs; w0 : list nat }.

Section File.
(** sizeof(idx_type) *)
Variable wi : nat.
(** calculate_sparse_size (lines 585-620, floating point): sparse_size and g_limit from
    item_num, sparse_weight and statistical_security_parameter *)
Variable sizes : nat -> nat -> nat -> nat * nat.

Definition idx (n : nat) : list N := le_bytes wi (N.of_nat n).
Definition byte (n : N) : list N := le_bytes 1 n.
(** DenseType is an enum of 4 bytes: lines 97-101 *)
Definition kind_code (k : dense_kind) : N := match k with binary => 0 | gf_128 => 1 end.

(** the loops [for (auto i = 0; i < n; i++)]: i is an int *)
Definition counts (n : nat) : bool := N.ltb (N.of_nat n) (2 ^ 31).
(** v[0], ..., v[n-1] *)
Definition prefix {A} (n : nat) (v : list A) : option (list A) :=
  if counts n && Nat.leb n (length v) then Some (firstn n v) else None.

(** The columns of weight 0: lines 434-453 *)
Fixpoint walk (fuel : nat) (nodes : list node) (c : option nat) : option (list nat) :=
  match c with
  | None => Some []
  | Some c =>
      match fuel with
      | O => None
      | S fuel => nd <- rd nodes c ;; l <- walk fuel nodes (next nd) ;; Some (c :: l)
      end
  end.

(** /repo mpc/okvs/paxos.hpp:375-464; the bytes of the file and the new [weight_0_list] *)
Definition WriteObject (x : obj) : option (list N * list nat) :=
  let o := st x in
  let g := gap_count o in
  let delta := length (tri_rows o) in
  sparse <- prefix (items x) (rows o) ;;
  sparse <- fold_right (fun r acc => r <- prefix (wt (par x)) r ;; acc <- acc ;; Some (r :: acc)) (Some []) sparse ;;
  dns <- prefix (items x) (dense o) ;;
  tr <- prefix delta (tri_rows o) ;;
  tc <- prefix delta (tri_cols o) ;;
  gr <- prefix g (gap_rows o) ;;
  gf <- prefix g (gap_first o) ;;
  gc <- prefix g (gap_cols o) ;;
  head <- rd (snd (lsts o)) 0 ;;
  zeros <- walk (S (length (fst (lsts o)))) (fst (lsts o)) head ;;
  let z := w0 x ++ zeros in
  z' <- prefix (length z) z ;;
  Some (idx (items x) ++ byte (N.of_nat (wt (par x))) ++ le_bytes 4 (kind_code (kind (par x))) ++
        idx delta ++ byte (N.of_nat g) ++
        concat (map idx (concat sparse)) ++ concat (map (le_bytes 16) dns) ++
        concat (map idx tr) ++ concat (map idx tc) ++ concat (map idx gr) ++ concat (map idx gf) ++
        concat (map byte gc) ++ idx (length z) ++ concat (map idx z'), z).

(** fin >> x for an x of w bytes *)
Definition take (w : nat) (s : list N) : option (N * list N) :=
  if Nat.leb w (length s) then Some (le_val (firstn w s), skipn w s) else None.
Fixpoint takes (n w : nat) (s : list N) : option (list N * list N) :=
  match n with
  | O => Some ([], s)
  | S n => v <- take w s ;; r <- takes n w (snd v) ;; Some (fst v :: fst r, snd r)
  end.
Definition index (r : option (list N * list N)) : option (list nat * list N) :=
  r <- r ;; Some (map N.to_nat (fst r), snd r).
Fixpoint take_rows (n w : nat) (s : list N) : option (list (list nat) * list N) :=
  match n with
  | O => Some ([], s)
  | S n => v <- index (takes w wi s) ;; r <- take_rows n w (snd v) ;; Some (fst v :: fst r, snd r)
  end.

(** /repo mpc/okvs/paxos.hpp:467-549 into the object [x]: what is returned and the object
    afterwards. mModVals and mMods are written at 0, ..., sparse_weight - 1 after reserve,
    which does not change their size (the one the constructor set). gap_rows_first_row is
    not resized. allocate() (551-582) renews the storage: col_weights and h_cols hold
    zeros, the nodes [junk] whatever the memory held; weight_set keeps its pointers and
    grows to 200. When the kind is wrong the object keeps the counts that were read. *)
Definition ReadObject (junk : list node) (x : obj) (s : list N) : option (bool * obj) :=
  let p := par x in
  let o := st x in
  n <- take wi s ;; w <- take 1 (snd n) ;; k <- take 4 (snd w) ;;
  let n' := N.to_nat (fst n) in
  let w' := N.to_nat (fst w) in
  if negb (N.eqb (fst k) (kind_code (kind p))) then
    Some (false, {| items := n'; par := {| bits := bits p; wt := w'; msize := msize p; glimit := glimit p; ssp := ssp p; kind := kind p |};
                    st := o; w0 := w0 x |})
  else
    let '(m, gl) := sizes n' w' (ssp p) in
    delta <- take wi (snd k) ;; g <- take 1 (snd delta) ;;
    if Nat.ltb (wt p) w' then None
    else if negb (counts n' && counts (N.to_nat (fst delta))) then None
    else
    sparse <- take_rows n' w' (snd g) ;;
    dns <- takes n' 16 (snd sparse) ;;
    tr <- index (takes (N.to_nat (fst delta)) wi (snd dns)) ;;
    tc <- index (takes (N.to_nat (fst delta)) wi (snd tr)) ;;
    gr <- index (takes (N.to_nat (fst g)) wi (snd tc)) ;;
    gf <- index (takes (N.to_nat (fst g)) wi (snd gr)) ;;
    if Nat.ltb (length (gap_first o)) (N.to_nat (fst g)) then None
    else
    gc <- takes (N.to_nat (fst g)) 1 (snd gf) ;;
    zn <- take wi (snd gc) ;;
    z <- index (takes (N.to_nat (fst zn)) wi (snd zn)) ;;
    Some (true,
      {| items := n';
         par := {| bits := bits p; wt := w'; msize := m; glimit := gl; ssp := ssp p; kind := kind p |};
         st := {| rows := fst sparse; dense := fst dns; colw := repeat 0 m; begins := repeat 0 m;
                  view := repeat 0 (n' * w');
                  lsts := (junk, firstn 200 (snd (lsts o)) ++ repeat None (200 - length (snd (lsts o))));
                  tri_rows := fst tr; tri_cols := fst tc;
                  gap_rows := fst gr; gap_first := fst gf ++ skipn (N.to_nat (fst g)) (gap_first o);
                  gap_cols := fst gc; fc := fc o; emat := emat o |};
         w0 := fst z |}).
End File.

(** [encode] of an object that may have a [weight_0_list] *)
Section Encode.
Variable vl : nat.

(** lines 1935-1940 *)
Fixpoint zero_list (l : list nat) (i : nat) (blocks : list N) (out : list N) : option (list N) :=
  match l with
  | [] => Some out
  | c :: l => v <- value_at vl blocks (i * vl) ;; out <- wr out c v ;; zero_list l (S i) blocks out
  end.

(** /repo mpc/okvs/paxos.hpp:1909-1943 *)
Definition zero_fill_any (o : okvs) (z : list nat) (out : list N) (t : nat -> N) : option (list N * (nat -> N)) :=
  h <- rd (snd (lsts o)) 0 ;;
  match h, z with
  | Some _, _ => zero_fill vl o out t
  | None, [] => Some (out, t)
  | None, _ => let '(blocks, t) := draw t (length z * vl) in out <- zero_list z 0 blocks out ;; Some (out, t)
  end.

(** /repo mpc/okvs/paxos.hpp:1897-1955, 2030-2036 *)
Definition encode_any (x : obj) (values : list N) (t : tape) : option (okvs * list N * tape) :=
  let p := par x in
  o <- (if is_nil (tri_rows (st x)) then triangulate p (st x) else Some (st x)) ;;
  r <- match t with
       | None => Some (repeat 0%N (total p), None)
       | Some t => r <- zero_fill_any o (w0 x) (repeat 0%N (total p)) t ;; Some (fst r, Some (snd r))
       end ;;
  let '(out, t) := r in
  match kind p with
  | binary => backfill_binary vl p o values out t
  | gf_128 => backfill_gf128 vl p o values out t
  end.

(** [OKVS x(n, weight)]: lines 622-648; nothing is stored yet *)
Definition new_obj (junk : list node) (n : nat) (p : params) : obj :=
  {| items := n; par := p; w0 := [];
     st := {| rows := repeat (repeat 0 (wt p)) n; dense := repeat 0%N n; colw := repeat 0 (msize p); begins := repeat 0 (msize p);
              view := repeat 0 (n * wt p); lsts := (junk, repeat None 200);
              tri_rows := []; tri_cols := []; gap_rows := []; gap_first := []; gap_cols := []; fc := []; emat := [] |} |}.
End Encode.
