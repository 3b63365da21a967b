(** Model of the generator and of the shuffles that hide positions:
    include/global.hpp:15-16 (global_built_in_prg), mpc/rpmt/cwprf_mqrpmt.hpp:221,
    mpc/pso/mqrpmt_private_id.hpp:174, mpc/peqt/peqt_from_ddh.hpp:31-37.

    std::mt19937 is written out from the C++ standard ([rand.eng.mers]).  std::shuffle is the
    loop of the standard library: position i = 1, 2, ... is exchanged with a position drawn
    from 0..i.  The draw (std::uniform_int_distribution on the generator) is an argument: the
    standard does not fix it. *)
From Coq Require Import NArith List Bool Arith.
From Verif.Base Require Import Words ListX.
Import ListNotations.
Local Open Scope N_scope.

(** ** std::mt19937: parameters w = 32, n = 624, m = 397, r = 31, a = 0x9908b0df, u = 11,
    d = 0xffffffff, s = 7, b = 0x9d2c5680, t = 15, c = 0xefc60000, l = 18, f = 1812433253 *)
Definition word (x : N) : N := x mod 2 ^ 32.
Definition mt_n : nat := 624.
Definition mt_m : nat := 397.

(** the tempering of an output *)
Definition t1 (x : N) : N := N.lxor x (N.land (N.shiftr x 11) 0xffffffff).
Definition t2 (x : N) : N := N.lxor x (N.land (word (N.shiftl x 7)) 0x9d2c5680).
Definition t3 (x : N) : N := N.lxor x (N.land (word (N.shiftl x 15)) 0xefc60000).
Definition t4 (x : N) : N := N.lxor x (N.shiftr x 18).
Definition temper (x : N) : N := t4 (t3 (t2 (t1 x))).

(** the next word from the words 624, 623 and 227 places before it *)
Definition twist (x0 x1 xm : N) : N :=
  let y := N.lor (N.land x0 0x80000000) (N.land x1 0x7fffffff) in
  N.lxor (N.lxor xm (N.shiftr y 1)) (if N.odd y then 0x9908b0df else 0).

(** the state is the list of the last 624 words; one call of the generator *)
Definition mt := list N.
Definition mt_next (g : mt) : N * mt :=
  let x := twist (nth 0 g 0) (nth 1 g 0) (nth mt_m g 0) in (temper x, tl g ++ [x]).

(** the state of a generator constructed from a seed: X_0 = seed, X_i = f (X_{i-1} xor (X_{i-1} >> 30)) + i *)
Fixpoint mt_fill (k : nat) (i : N) (x : N) : list N :=
  match k with
  | O => []
  | S k' => x :: mt_fill k' (i + 1) (word (1812433253 * N.lxor x (N.shiftr x 30) + (i + 1)))
  end.
Definition mt_seeded (seed : N) : mt := mt_fill mt_n 0 (word seed).

(** k calls *)
Fixpoint mt_run (k : nat) (g : mt) : list N * mt :=
  match k with
  | O => ([], g)
  | S k' => let '(x, g1) := mt_next g in let '(l, g2) := mt_run k' g1 in (x :: l, g2)
  end.

(** /repo include/global.hpp:15-16: rd() is an unsigned int of 32 bits *)
Definition global_built_in_prg (rd : N) : mt := mt_seeded rd.

(** ** std::shuffle *)
Section Shuffle.
Context {A : Type} (a0 : A).
(** std::iter_swap *)
Definition swap (l : list A) (i j : nat) : list A := upd (upd l i (nth j l a0)) j (nth i l a0).
(** the loop from position i on, with the draws given *)
Fixpoint exchange (i : nat) (ds : list nat) (l : list A) : list A :=
  match ds with
  | [] => l
  | j :: ds' => exchange (S i) ds' (swap l i j)
  end.
(** the draws the loop asks for: one in 0..i for each i from i on *)
Variable draw : mt -> nat -> nat * mt.
Fixpoint draws (k i : nat) (g : mt) : list nat * mt :=
  match k with
  | O => ([], g)
  | S k' => let '(j, g1) := draw g i in let '(ds, g2) := draws k' (S i) g1 in (j :: ds, g2)
  end.
Definition shuffle (g : mt) (l : list A) : list A * mt :=
  let '(ds, g') := draws (length l - 1) 1 g in (exchange 1 ds l, g').
End Shuffle.
