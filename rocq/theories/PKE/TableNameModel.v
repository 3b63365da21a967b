(** The names of the files of the discrete-log table, and the step of the two encryption schemes
    that builds the file only if no file of that name exists.  Characters are of the type [ascii];
    a string of bytes is a list of numbers below 256. *)
From Coq Require Import NArith ZArith List Lia Bool Arith String Ascii DecimalString.
From Verif.Base Require Import Words.
From Verif.Group Require Import ECModel.
From Verif.PKE Require Import DlogModel.
Import ListNotations.
Local Open Scope string_scope.

(** the digits of a number below 16, after toupper (utility/routines.hpp:35) *)
Definition hex_digit (d : N) : string :=
  match d with
  | 0%N => "0" | 1%N => "1" | 2%N => "2" | 3%N => "3" | 4%N => "4" | 5%N => "5" | 6%N => "6" | 7%N => "7"
  | 8%N => "8" | 9%N => "9" | 10%N => "A" | 11%N => "B" | 12%N => "C" | 13%N => "D" | 14%N => "E" | _ => "F"
  end.
(** [ss << std::hex << v] for a number of 32 bits: no leading zeros, at least one digit (eight
    digits are enough) *)
Fixpoint hex_digits (fuel : nat) (v : N) : string :=
  match fuel with
  | O => ""
  | S f => if (v <? 16)%N then hex_digit v else hex_digits f (v / 16) ++ hex_digit (v mod 16)
  end.
Definition print_hex (v : N) : string := hex_digits 8 v.
(** [int(item)] for a signed [char] (the default on x86), as the 32 bits that std::hex prints *)
Definition int_of_char (c : N) : N := if (c <? 128)%N then c else (2 ^ 32 - 256 + c)%N.
(** /repo utility/routines.hpp:24-38 *)
Definition ToHexString (bytes : list N) : string :=
  fold_right (fun c s => print_hex (int_of_char c) ++ s) "" bytes.

(** std::to_string of an unsigned number *)
Definition to_string (n : nat) : string := NilEmpty.string_of_uint (Nat.to_uint n).

(** /repo pke/calculate_dlog.hpp:64-81.  The argument [digest] is Hash::ECPointToString(g).
    Simplification: RANGE_LEN/2-TRADEOFF_NUM-6 is taken as a natural number; CheckDlogParameters
    (lines 45-62) is called before and refuses a negative value. *)
Definition GetTableFileName (digest : list N) (RANGE_LEN TRADEOFF_NUM : nat) : string :=
  substring 0 16 (ToHexString digest) ++ "[" ++
  "2" ++ "^" ++ to_string RANGE_LEN ++ "," ++
  "2" ++ "^" ++ to_string (RANGE_LEN / 2 + TRADEOFF_NUM) ++ "," ++
  "2" ++ "^" ++ to_string (RANGE_LEN / 2 - TRADEOFF_NUM - LOG_TASK_NUM) ++ "].table".

Section Disk.
Variable G : ECGroup.
Variable key : pt G -> N.
Variable digest : pt G -> list N.

(** the directory: the content of the file of each name, if there is one *)
Definition disk := string -> option (list N).
Definition write_file (d : disk) (name : string) (content : list N) : disk :=
  fun n => if String.eqb n name then Some content else d n.

(** /repo pke/exponential_elgamal.hpp:154-170 (with base pp.g) and
    /repo pke/twisted_exponential_elgamal.hpp:160-176 (with base pp.h): the new directory and the
    tables of the process; [None] is an exit. *)
Definition InitializeOnDisk (garbage : list N) (bs : list nat) (d : disk) (st : dstate G) (base : pt G) (R T : nat)
  : option (disk * dstate G) :=
  if CheckDlogParameters R T then
    let name := GetTableFileName (digest base) R T in
    let '(st', d') := match d name with
                      | Some _ => (st, d)
                      | None => let '(st', content) := BuildSaveTable G key garbage st base R T bs in
                                (st', write_file d name content)
                      end in
    match d' name with
    | Some content => match LoadTable G st' content R T with
                      | Some st'' => Some (d', st'')
                      | None => None
                      end
    | None => None
    end
  else None.
End Disk.
