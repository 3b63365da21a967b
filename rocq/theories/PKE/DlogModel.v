(** Model of pke/calculate_dlog.hpp: the parallel baby-step giant-step search with
    its precomputed table file.

    Sizes such as [pow(2, RANGE_LEN/2 + TRADEOFF_NUM)] are computed by the code in
    double and converted to size_t; the conversion is exact below 2^64 and
    undefined above, so the model uses exact powers and the theorems state the
    bound.  The hash of a point to its 8-byte key is a parameter [key]
    (ECPoint::ToUint64: MurmurHash64A of the compressed encoding, cited below). *)
From Coq Require Import NArith ZArith List Lia Bool Arith.
From Verif.Base Require Import Words ListX.
From Verif.Utility Require Import SerialModel.
From Verif.Crypto Require Import BigIntModel.
From Verif.Group Require Import ECModel.
Import ListNotations.
Local Open Scope nat_scope.

(** /repo pke/calculate_dlog.hpp:30-31 *)
Definition LOG_TASK_NUM : nat := 6.
Definition BUILD_TASK_NUM : nat := 2 ^ LOG_TASK_NUM.
Definition SEARCH_TASK_NUM : nat := 2 ^ LOG_TASK_NUM.

(** /repo pke/calculate_dlog.hpp:110 and 309-310 *)
Definition BABYSTEP_NUM (R T : nat) : nat := 2 ^ (R / 2 + T).
Definition GIANTSTEP_NUM (R T : nat) : nat := 2 ^ (R / 2 - T).
Definition SLICED_BABYSTEP_NUM (R T : nat) : nat := BABYSTEP_NUM R T / BUILD_TASK_NUM.
Definition SLICED_GIANTSTEP_NUM (R T : nat) : nat := GIANTSTEP_NUM R T / SEARCH_TASK_NUM.

(** /repo pke/calculate_dlog.hpp:48-62: false = exit(EXIT_FAILURE) *)
Definition CheckDlogParameters (R T : nat) : bool :=
  if R / 2 <? T then false
  else if R / 2 + T <? LOG_TASK_NUM then false
  else if R / 2 - T <? LOG_TASK_NUM then false
  else true.

(** std::unordered_map<size_t,size_t>: the most recent binding of a key is found
    first; operator[] = overwrites *)
Definition hmap : Type := list (N * nat).
Fixpoint hfind (m : hmap) (k : N) : option nat :=
  match m with
  | [] => None
  | (k', v) :: r => if (k =? k')%N then Some v else hfind r k
  end.
Definition hset (m : hmap) (k : N) (v : nat) : hmap := (k, v) :: m.

Section Dlog.
Variable G : ECGroup.
(** /repo crypto/ec_point.hpp:242-251 (ToUint64) *)
Variable key : pt G -> N.
Local Infix "+p" := (padd G) (at level 50, left associativity).
Local Notation "P *p k" := (pmul G P k%Z) (at level 40, left associativity).

(** the global objects of the header: giantstep, vec_searchanchor,
    encoding2index_map.  A default-constructed ECPoint is the point at infinity. *)
Record dstate : Type := { giantstep : pt G; anchors : list (pt G); index_map : hmap }.
Definition dstate0 : dstate := {| giantstep := inf G; anchors := []; index_map := [] |}.

(** /repo pke/calculate_dlog.hpp:87-96: BuildSlicedKeyTable; the buffer is an array
    of 8-byte keys *)
Fixpoint BuildSlicedKeyTable (g startpoint : pt G) (startindex n : nat) (buffer : list N) : list N :=
  match n with
  | O => buffer
  | S n' => BuildSlicedKeyTable g (startpoint +p g) (S startindex) n'
              (upd buffer startindex (key startpoint))
  end.

(** /repo pke/calculate_dlog.hpp:117-137: the parallel loop over the build tasks;
    the tasks run in the order [sched] (any order: they write disjoint slices) *)
Fixpoint build_tasks (g : pt G) (R T : nat) (sched : list nat) (buffer : list N) : list N :=
  match sched with
  | [] => buffer
  | i :: r =>
      let startindex := i * SLICED_BABYSTEP_NUM R T in
      build_tasks g R T r
        (BuildSlicedKeyTable g (g *p Z.of_nat startindex) startindex (SLICED_BABYSTEP_NUM R T) buffer)
  end.

(** /repo pke/calculate_dlog.hpp:123-137: the baby-step keys *)
Definition babystep_keys (g : pt G) (R T : nat) (sched : list nat) : list N :=
  build_tasks g R T sched (repeat 0%N (BABYSTEP_NUM R T)).
(** /repo pke/calculate_dlog.hpp:149-151 *)
Definition giantstep_of (g : pt G) (R T : nat) : pt G :=
  pneg G (g *p Z.of_nat (BABYSTEP_NUM R T)).
(** /repo pke/calculate_dlog.hpp:153-159 *)
Definition anchors_of (g : pt G) (R T : nat) : list (pt G) :=
  map (fun i => giantstep_of g R T *p Z.of_nat (SLICED_GIANTSTEP_NUM R T) *p Z.of_nat i)
      (seq 0 SEARCH_TASK_NUM).

(** /repo pke/calculate_dlog.hpp:109-187: BuildSaveTable writes the keys, the giant
    step and the anchors to the file; it also sets the two globals *)
Definition table_file (garbage : list N) (g : pt G) (R T : nat) (sched : list nat) : list N :=
  write_vec 8 (babystep_keys g R T sched)
  ++ write_point G garbage (giantstep_of g R T)
  ++ write_points G garbage (anchors_of g R T).
Definition BuildSaveTable (garbage : list N) (st : dstate) (g : pt G) (R T : nat) (sched : list nat)
  : dstate * list N :=
  ({| giantstep := giantstep_of g R T; anchors := anchors_of g R T; index_map := index_map st |},
   table_file garbage g R T sched).

(** std::vector::resize on the anchors: new elements are default points *)
Definition resize (v : list (pt G)) (n : nat) : list (pt G) :=
  firstn n v ++ repeat (inf G) (n - length v).

(** /repo pke/calculate_dlog.hpp:243-247: for i: encoding2index_map[hashkey] = i *)
Fixpoint load_keys (keys : list N) (i : nat) (m : hmap) : hmap :=
  match keys with
  | [] => m
  | k :: r => load_keys r (S i) (hset m k i)
  end.

(** /repo pke/calculate_dlog.hpp:194-271: LoadTable; None = exit(EXIT_FAILURE)
    because the size does not match.  encoding2index_map is not cleared. *)
Definition LoadTable (st : dstate) (file : list N) (R T : nat) : option dstate :=
  let keysz := BABYSTEP_NUM R T * 8 in
  if length file =? keysz + (SEARCH_TASK_NUM + 1) * 65 then
    match read_vec 8 (repeat 0%N (BABYSTEP_NUM R T)) file with
    | None => None
    | Some (keys, s1) =>
        match read_point G (giantstep st) s1 with
        | None => None
        | Some (gs, s2) =>
            match read_points G (resize (anchors st) SEARCH_TASK_NUM) s2 with
            | None => None
            | Some (an, _) =>
                Some {| giantstep := gs; anchors := an; index_map := load_keys keys 0 (index_map st) |}
            end
        end
    end
  else None.

(** ** the parallel search *)

(** Where one search task is.  [Hit b j]: SearchSlicedRange returned true with
    these indices; [Wrote]: x has been assigned, FIND not yet. *)
Inductive task : Type :=
  | Idle
  | Searching (target : pt G) (j : nat)
  | Hit (b j : nat)
  | Wrote
  | Done.

(** shared memory of ShanksDLOG: FIND, x and the tasks *)
Record search : Type := { FIND : bool; xval : Z; tasks : list task }.

(** One step of task [i]: every access to shared memory is a separate step, so a
    list of task numbers is an arbitrary interleaving of the OpenMP threads.
    /repo pke/calculate_dlog.hpp:275-300 (SearchSlicedRange), 327-336 *)
Definition task_step (st : dstate) (h : pt G) (R T : nat) (i : nat) (s : search) (t : task)
  : bool * Z * task :=
  match t with
  | Idle =>
      (* if(FIND == false) SearchSlicedRange: target = target + vec_searchanchor[i] *)
      if FIND s then (FIND s, xval s, Done)
      else (FIND s, xval s, Searching (h +p nth i (anchors st) (inf G)) 0)
  | Searching target j =>
      if j <? SLICED_GIANTSTEP_NUM R T then
        if FIND s then (FIND s, xval s, Done)
        else
          match hfind (index_map st) (key target) with
          | None => (FIND s, xval s, Searching (target +p giantstep st) (S j))
          | Some b => (FIND s, xval s, Hit b j)
          end
      else (FIND s, xval s, Done)
  | Hit b j =>
      (FIND s,
       (Z.of_nat b + (Z.of_nat j + Z.of_nat i * Z.of_nat (SLICED_GIANTSTEP_NUM R T))
                     * Z.of_nat (BABYSTEP_NUM R T))%Z,
       Wrote)
  | Wrote => (true, xval s, Done)
  | Done => (FIND s, xval s, Done)
  end.

Definition search_step (st : dstate) (h : pt G) (R T : nat) (s : search) (i : nat) : search :=
  match nth_error (tasks s) i with
  | None => s
  | Some t =>
      let '(f, x, t') := task_step st h R T i s t in
      {| FIND := f; xval := x; tasks := upd (tasks s) i t' |}
  end.

Definition search0 (x0 : Z) : search :=
  {| FIND := false; xval := x0; tasks := repeat Idle SEARCH_TASK_NUM |}.

Definition run (st : dstate) (h : pt G) (R T : nat) (x0 : Z) (sched : list nat) : search :=
  fold_left (search_step st h R T) sched (search0 x0).

Definition is_done (t : task) : bool := match t with Done => true | _ => false end.
(** the parallel region has ended: every task has returned *)
Definition finished (s : search) : bool := forallb is_done (tasks s).

(** /repo pke/calculate_dlog.hpp:305-339: the outcome of ShanksDLOG(g, h, ..., x)
    under one interleaving: None = exit because the table is empty; otherwise the
    returned flag and the final value of x (whose initial value is [x0]) *)
Definition ShanksDLOG (st : dstate) (h : pt G) (R T : nat) (x0 : Z) (sched : list nat)
  : option (bool * Z) :=
  match index_map st with
  | [] => None
  | _ => let s := run st h R T x0 sched in Some (FIND s, xval s)
  end.

End Dlog.
