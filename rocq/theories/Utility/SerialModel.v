(** Model of utility/serialization.hpp and of the block stream operators of
    crypto/block.hpp.

    A file that has been written is a list of bytes.  A reader is positioned at
    the front of the remaining bytes.  A read of more bytes than remain sets the
    stream's fail bit and leaves the target partially assigned: [None].  The
    memory behind a vector is given by the byte size of its elements; an element
    is the little-endian value of its object representation (x86-64). *)
From Coq Require Import NArith List Lia Arith.
From Verif.Base Require Import Words ListX.
From Verif.Crypto Require Import BlockModel.
Import ListNotations.
Local Open Scope N_scope.

(** /repo utility/serialization.hpp:24,40,54,73 (fin.read(p, n)): take exactly
    [n] bytes from the stream, or fail *)
Definition fin_read (n : nat) (s : list N) : option (list N * list N) :=
  if (n <=? length s)%nat then Some (firstn n s, skipn n s) else None.

(** /repo utility/serialization.hpp:16-20: operator<<(ofstream, size_t) *)
Definition write_size (x : N) : list N := le_bytes 8 x.
(** /repo utility/serialization.hpp:22-26: operator>>(ifstream, size_t) *)
Definition read_size (s : list N) : option (N * list N) :=
  match fin_read 8 s with Some (b, r) => Some (le_val b, r) | None => None end.

(** /repo utility/serialization.hpp:29-34: operator<< for a POD of sizeof = [w] *)
Definition write_pod (w : nat) (x : N) : list N := le_bytes w x.
(** /repo utility/serialization.hpp:36-41: operator>> for a POD of sizeof = [w] *)
Definition read_pod (w : nat) (s : list N) : option (N * list N) :=
  match fin_read w s with Some (b, r) => Some (le_val b, r) | None => None end.

(** the object representation of a contiguous vector of PODs *)
Fixpoint vec_bytes (w : nat) (v : list N) : list N :=
  match v with [] => [] | x :: r => le_bytes w x ++ vec_bytes w r end.
(** the same memory seen as [n] elements of [w] bytes *)
Fixpoint bytes_vec (w n : nat) (bs : list N) : list N :=
  match n with
  | O => []
  | S n' => le_val (firstn w bs) :: bytes_vec w n' (skipn w bs)
  end.

(** /repo utility/serialization.hpp:44-49: operator<< for std::vector<POD>: the
    raw elements, no length *)
Definition write_vec (w : nat) (v : list N) : list N := vec_bytes w v.
(** /repo utility/serialization.hpp:51-56: operator>> for std::vector<POD>: as
    many elements as the target vector already has ([old]) *)
Definition read_vec (w : nat) (old : list N) (s : list N) : option (list N * list N) :=
  match fin_read (length old * w) s with
  | Some (b, r) => Some (bytes_vec w (length old) b, r)
  | None => None
  end.

(** /repo utility/serialization.hpp:58-65: operator<<<std::string> *)
Definition write_string (str : list N) : list N :=
  write_size (N.of_nat (length str)) ++ str.
(** /repo utility/serialization.hpp:67-75: operator>><std::string> *)
Definition read_string (s : list N) : option (list N * list N) :=
  match read_size s with
  | Some (LEN, r) =>
      (* str.resize(LEN); fin.read(&str[0], str.size()) *)
      if LEN <=? N.of_nat (length r) then fin_read (N.to_nat LEN) r else None
  | None => None
  end.

(** /repo crypto/block.hpp:192-198: operator<<(ofstream, block) *)
Definition write_blk (b : N) : list N := le_bytes 16 b.
(** /repo crypto/block.hpp:200-206: operator>>(ifstream, block) *)
Definition read_blk (s : list N) : option (N * list N) :=
  match fin_read 16 s with Some (b, r) => Some (le_val b, r) | None => None end.
(** /repo crypto/block.hpp:208-216: operator<<(ofstream, vector<block>) *)
Definition write_blks (v : list N) : list N := vec_bytes 16 v.
(** /repo crypto/block.hpp:218-226: operator>>(ifstream, vector<block>) *)
Definition read_blks (old : list N) (s : list N) : option (list N * list N) :=
  match fin_read (length old * 16) s with
  | Some (b, r) => Some (bytes_vec 16 (length old) b, r)
  | None => None
  end.

(** What a program writes to one stream: any sequence of the above objects.  The
    program that reads the file declares one target per object: its type, and for
    vectors the target's current elements, since operator>> only fills them. *)
Inductive object : Type :=
  | OSize (x : N)
  | OPod (w : nat) (x : N)
  | OVec (w : nat) (v : list N)
  | OString (str : list N)
  | OBlock (b : N)
  | OBlocks (v : list N).

Inductive target : Type :=
  | TSize
  | TPod (w : nat)
  | TVec (w : nat) (old : list N)
  | TString
  | TBlock
  | TBlocks (old : list N).

(** /repo utility/serialization.hpp, crypto/block.hpp: overload resolution *)
Definition write_obj (o : object) : list N :=
  match o with
  | OSize x => write_size x
  | OPod w x => write_pod w x
  | OVec w v => write_vec w v
  | OString s => write_string s
  | OBlock b => write_blk b
  | OBlocks v => write_blks v
  end.

Definition read_obj (t : target) (s : list N) : option (object * list N) :=
  match t with
  | TSize => match read_size s with Some (x, r) => Some (OSize x, r) | None => None end
  | TPod w => match read_pod w s with Some (x, r) => Some (OPod w x, r) | None => None end
  | TVec w old => match read_vec w old s with Some (x, r) => Some (OVec w x, r) | None => None end
  | TString => match read_string s with Some (x, r) => Some (OString x, r) | None => None end
  | TBlock => match read_blk s with Some (x, r) => Some (OBlock x, r) | None => None end
  | TBlocks old => match read_blks old s with Some (x, r) => Some (OBlocks x, r) | None => None end
  end.

(** fout << o1 << o2 << ... *)
Fixpoint write_objs (os : list object) : list N :=
  match os with [] => [] | o :: r => write_obj o ++ write_objs r end.

(** fin >> t1 >> t2 >> ... *)
Fixpoint read_objs (ts : list target) (s : list N) : option (list object * list N) :=
  match ts with
  | [] => Some ([], s)
  | t :: r =>
      match read_obj t s with
      | Some (o, s') =>
          match read_objs r s' with Some (os, s'') => Some (o :: os, s'') | None => None end
      | None => None
      end
  end.
