(** Hashed sets and orders of points: crypto/ec_point.hpp, crypto/ec_25519.hpp, and their use in
    mpc/rpmt/cwprf_mqrpmt.hpp. *)
From Coq Require Import NArith ZArith List Bool Arith.
From Verif.Base Require Import Words ListX.
From Verif.Group Require Import ECModel.
Import ListNotations.

(** std::unordered_set<A, Hash>: buckets, each a list of items.  [eqb] is operator==, [h] the Hash. *)
Section Set_.
Context {A : Type} (eqb : A -> A -> bool) (h : A -> N).
Definition bucket (n : nat) (x : A) : nat := N.to_nat (h x mod N.of_nat n).
(** find *)
Definition find_item (tb : list (list A)) (x : A) : bool := existsb (eqb x) (nth (bucket (length tb) x) tb []).
(** insert: nothing happens when an equal item is in its bucket *)
Definition put_item (tb : list (list A)) (x : A) : list (list A) :=
  let i := bucket (length tb) x in upd tb i (x :: nth i tb []).
Definition insert_item (tb : list (list A)) (x : A) : list (list A) := if find_item tb x then tb else put_item tb x.
(** rehash to n buckets *)
Definition rehash (tb : list (list A)) (n : nat) : list (list A) := fold_left put_item (concat tb) (repeat [] n).
(** /repo mpc/rpmt/cwprf_mqrpmt.hpp:148-151, 298-301: all items inserted one after the other.  grow says whether the library
    rehashes after the k-th insertion, and to how many buckets. *)
Fixpoint build (grow : nat -> option nat) (k : nat) (tb : list (list A)) (l : list A) : list (list A) :=
  match l with
  | [] => tb
  | x :: l' =>
      let tb := insert_item tb x in
      build grow (S k) (match grow k with Some n => rehash tb (S n) | None => tb end) l'
  end.
(** the set starts with n + 1 buckets *)
Definition set_from (grow : nat -> option nat) (n : nat) (l : list A) : list (list A) := build grow 0 (repeat [] (S n)) l.
End Set_.

(** std::string::operator<: characters are compared as unsigned *)
Fixpoint string_lt (a b : list N) : bool :=
  match a, b with
  | _, [] => false
  | [], _ :: _ => true
  | x :: a', y :: b' => if (x <? y)%N then true else if (y <? x)%N then false else string_lt a' b'
  end.

(** /repo crypto/ec_point.hpp:466-472 (ECPointHash); stdhash is std::hash<std::string> *)
Definition ECPointHash (G : ECGroup) (stdhash : list N -> N) (P : pt G) : N := stdhash (ToByteString G P).
(** /repo crypto/ec_point.hpp:474-476 *)
Definition ECPoint_Lexical_Compare (G : ECGroup) (P Q : pt G) : bool := string_lt (ToByteString G P) (ToByteString G Q).

(** /repo crypto/ec_25519.hpp:20-22: a point is 32 bytes *)
Definition EC25519Point := list N.
Definition ok25519 (A : EC25519Point) : Prop := length A = 32 /\ bytes_ok A.
(** /repo crypto/ec_25519.hpp:48, 100-102 *)
Definition CompareTo25519 (A B : EC25519Point) : bool := if list_eq_dec N.eq_dec (firstn 32 A) (firstn 32 B) then true else false.
(** /repo crypto/ec_25519.hpp:106-111: memcpy over a string of 32 '0' *)
Definition ToByteString25519 (A : EC25519Point) : list N := firstn 32 A.
(** /repo crypto/ec_25519.hpp:140-146 *)
Definition EC25519PointHash (stdhash : list N -> N) (A : EC25519Point) : N := stdhash (ToByteString25519 A).
(** /repo crypto/ec_25519.hpp:148-150 *)
Definition EC25519Point_Lexical_Compare (A B : EC25519Point) : bool := string_lt (ToByteString25519 A) (ToByteString25519 B).
(** /repo crypto/ec_25519.hpp:128-138; a read that meets the end keeps the bytes of the object after those read *)
Definition write25519 (A : EC25519Point) : list N := firstn 32 A.
Definition read25519 (old : EC25519Point) (s : list N) : EC25519Point * list N :=
  (firstn 32 s ++ skipn (length (firstn 32 s)) old, skipn 32 s).

(** /repo mpc/rpmt/cwprf_mqrpmt.hpp:148-156, 298-306: the indication bits of vec_Fk1k2_X against the set of vec_Fk2k1_Y *)
Definition indication_bits {A} (eqb : A -> A -> bool) (h : A -> N) (grow : nat -> option nat) (n : nat) (FY FX : list A) : list N :=
  let S := set_from eqb h grow n FY in map (fun x => if find_item eqb h S x then 1%N else 0%N) FX.
