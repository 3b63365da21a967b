(** Model of the message channel, netio/stream_channel.hpp.

    One direction of a connection is a FILE stream bound to a TCP socket.  fwrite and
    fread may transfer fewer bytes than asked; how many, and how the two parties' calls
    interleave, is an arbitrary schedule.  The socket keeps bytes and their order (TCP is
    trusted).  [gb]: uninitialised buffers. *)
From Coq Require Import NArith ZArith List Arith.
From Verif.Base Require Import Words ListX.
From Verif.Utility Require Import SerialModel.
From Verif.Crypto Require Import BigIntModel.
From Verif.Group Require Import ECModel.
Import ListNotations.

(** what a receiving party does: it asks for n bytes and goes on with them *)
Inductive prog (A : Type) : Type :=
| Done (a : A)
| Recv (n : nat) (f : list N -> prog A).
Arguments Done {A} a.
Arguments Recv {A} n f.

Fixpoint bind {A B : Type} (p : prog A) (g : A -> prog B) : prog B :=
  match p with
  | Done a => g a
  | Recv n f => Recv n (fun b => bind (f b) g)
  end.

(** [todo]: the buffers of the sending party's calls still to be written; [pipe]: bytes
    on the wire; [have]: what the current ReceiveDataInternal has stored; [rp]: what the
    receiving party does next *)
Record chan (A : Type) := { todo : list (list N); pipe : list N; have : list N; rp : prog A }.
Arguments todo {A} c.
Arguments pipe {A} c.
Arguments have {A} c.
Arguments rp {A} c.

(** one turn of one party, in which fwrite/fread transfers at most k bytes *)
Inductive turn := Snd (k : nat) | Rcv (k : nat).

(** /repo netio/stream_channel.hpp:200-214 (SendDataInternal): one iteration; a finished
    call lets the next one begin *)
Definition send_turn {A} (k : nat) (c : chan A) : chan A :=
  match todo c with
  | [] => c
  | d :: t =>
      let d' := skipn k d in
      {| todo := match d' with [] => t | _ => d' :: t end; pipe := pipe c ++ firstn k d; have := have c; rp := rp c |}
  end.
(** /repo netio/stream_channel.hpp:217-226 (ReceiveDataInternal): one iteration *)
Definition recv_turn {A} (k : nat) (c : chan A) : chan A :=
  match rp c with
  | Done _ => c
  | Recv n f =>
      let m := Nat.min k (n - length (have c)) in
      let have' := have c ++ firstn m (pipe c) in
      if (length have' <? n)%nat then {| todo := todo c; pipe := skipn m (pipe c); have := have'; rp := rp c |}
      else {| todo := todo c; pipe := skipn m (pipe c); have := []; rp := f have' |}
  end.
Definition take_turn {A} (c : chan A) (t : turn) : chan A :=
  match t with Snd k => send_turn k c | Rcv k => recv_turn k c end.
Definition run_turns {A} (c : chan A) (s : list turn) : chan A := fold_left take_turn s c.
Definition start {A} (bufs : list (list N)) (p : prog A) : chan A := {| todo := bufs; pipe := []; have := []; rp := p |}.

(** ** what is sent *)
Section Messages.
Variable G : ECGroup.

Inductive msg : Type :=
| MBytes (d : list N)                      (* SendBytes, SendBits, SendString *)
| MBlocks (v : list N)                     (* SendBlocks, SendBlock *)
| MInt (w : nat) (x : N)                   (* SendInteger<T>, sizeof(T) = w *)
| MPoints (v : list (pt G))                (* SendECPoints, SendECPoint *)
| MPoints25519 (v : list (list N))         (* SendEC25519Points *)
| MBigInt (LEN : nat) (a : Z)              (* SendBigInt(a), SendBigInt(a, LEN) *)
| MBytesVec (v : list (list N))            (* SendBytesVector *)
| MStringVec (LEN : nat) (v : list (list N)). (* SendStringVector(v, LEN) *)

(** /repo netio/stream_channel.hpp:377-379, 392-394: the buffer is zeroed, the result of
    BN_bn2binpad is ignored *)
Definition bigint_buffer (LEN : nat) (a : Z) : list N :=
  match BN_bn2binpad a LEN with Some bs => bs | None => repeat 0%N LEN end.

(** memcpy(buffer+i*LEN, A[i].data(), LEN) for every item; None: reads past an item *)
Fixpoint pack (LEN : nat) (v : list (list N)) : option (list N) :=
  match v with
  | [] => Some []
  | d :: v' =>
      if (length d <? LEN)%nat then None
      else match pack LEN v' with Some r => Some (firstn LEN d ++ r) | None => None end
  end.

(** the buffers handed to SendDataInternal, one per call; None: undefined behaviour *)
Definition send (gb : list N) (m : msg) : option (list (list N)) :=
  match m with
  | MBytes d => Some [d]                                           (* :229-233 *)
  | MBlocks v => Some [vec_bytes 16 v]                             (* :240-243, 415-418 *)
  | MInt w x => Some [le_bytes w x]                                (* :403-407 *)
  | MPoints v => Some [write_points G gb v]                        (* :279-299, 344-356 *)
  | MPoints25519 v => match pack 32 v with Some d => Some [d] | None => None end (* :323-331 *)
  | MBigInt LEN a => Some [bigint_buffer LEN a]                    (* :373-379, 388-394 *)
  | MBytesVec v =>                                                 (* :427-441 *)
      match v with
      | [] => None                                                 (* A[0] *)
      | d :: _ =>
          match pack (length d) v with
          | Some b => Some [le_bytes 8 (N.of_nat (length v)); le_bytes 8 (N.of_nat (length d)); b]
          | None => None
          end
      end
  | MStringVec LEN v =>                                            (* :461-473 *)
      match pack LEN v with Some b => Some [le_bytes 8 (N.of_nat (length v)); b] | None => None end
  end.

(** ** what is received *)
Inductive target : Type :=
| TBytes (n : nat)                         (* n bytes *)
| TBlocks (n : nat)
| TInt (w : nat)
| TPoints (old : list (pt G))              (* the points of the array before the call *)
| TPoints25519 (n : nat)
| TBigInt (LEN : nat)
| TBytesVec
| TStringVec (LEN : nat).

(** buffer+i*LEN .. buffer+(i+1)*LEN for i < n *)
Fixpoint unpack (LEN n : nat) (b : list N) : list (list N) :=
  match n with O => [] | S n' => firstn LEN b :: unpack LEN n' (skipn LEN b) end.

(** /repo netio/stream_channel.hpp:302-320: the results of EC_POINT_oct2point are ignored *)
Fixpoint points_of (old : list (pt G)) (b : list N) : list (pt G) :=
  match old with
  | [] => []
  | o :: old' => match oct65 G (firstn 65 b) with Some P => P | None => o end :: points_of old' (skipn 65 b)
  end.

Definition recv (t : target) : prog msg :=
  match t with
  | TBytes n => Recv n (fun b => Done (MBytes b))                               (* :235-238 *)
  | TBlocks n => Recv (n * 16) (fun b => Done (MBlocks (bytes_vec 16 n b)))     (* :245-248, 420-423 *)
  | TInt w => Recv w (fun b => Done (MInt w (le_val b)))                        (* :408-412 *)
  | TPoints old => Recv (length old * 65) (fun b => Done (MPoints (points_of old b))) (* :302-320, 358-371 *)
  | TPoints25519 n => Recv (32 * n) (fun b => Done (MPoints25519 (unpack 32 n b)))    (* :333-341 *)
  | TBigInt LEN => Recv LEN (fun b => Done (MBigInt LEN (BN_bin2bn b)))         (* :381-386, 396-401 *)
  | TBytesVec =>                                                                (* :443-458 *)
      Recv 8 (fun b1 => Recv 8 (fun b2 =>
        let NUM := N.to_nat (le_val b1) in
        let LEN := N.to_nat (le_val b2) in
        Recv (N.to_nat (wrap64 (le_val b2 * le_val b1))) (fun b => Done (MBytesVec (unpack LEN NUM b)))))
  | TStringVec LEN =>                                                           (* :475-489 *)
      Recv 8 (fun b1 =>
        let NUM := N.to_nat (le_val b1) in
        Recv (N.to_nat (wrap64 (N.of_nat LEN * le_val b1))) (fun b => Done (MStringVec LEN (unpack LEN NUM b))))
  end.

(** a party that sends several messages, a party that receives several *)
Fixpoint sends (gb : list N) (ms : list msg) : option (list (list N)) :=
  match ms with
  | [] => Some []
  | m :: ms' => match send gb m, sends gb ms' with Some a, Some b => Some (a ++ b) | _, _ => None end
  end.
Fixpoint recvs (ts : list target) : prog (list msg) :=
  match ts with
  | [] => Done []
  | t :: ts' => bind (recv t) (fun m => bind (recvs ts') (fun ms => Done (m :: ms)))
  end.
End Messages.
