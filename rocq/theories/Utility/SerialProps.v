(** Property C16: primitive serialization round-trips. *)
From Coq Require Import NArith List Lia.
From Verif.Base Require Import Words.
From Verif.Utility Require Import SerialModel SerialSpec SerialProofs.
Import ListNotations.
Local Open Scope N_scope.

(** Any sequence of objects written to one stream is read back unchanged by the
    program that declares matching targets (vectors pre-sized, whatever they
    contained), and the reader stops exactly where the writer did, so anything
    written afterwards is untouched. *)
Theorem C16_round_trip : forall os ts rest,
  Forall representable os -> Forall2 matching os ts ->
  read_objs ts (write_objs os ++ rest) = Some (os, rest).
Proof. exact read_write_objs. Qed.
Print Assumptions C16_round_trip.

Example C16_round_trip_case :
  let os := [OSize 5; OString [104; 105; 0; 255]; OVec 4 [1; 4294967295; 7]; OBlock (2 ^ 127 + 3);
             OString []; OPod 1 255; OBlocks [1; 2]] in
  let ts := [TSize; TString; TVec 4 [9; 9; 9]; TBlock; TString; TPod 1; TBlocks [0; 0]] in
  Forall representable os /\ Forall2 matching os ts /\
  length (write_objs os) = 89%nat.
Proof.
  cbv zeta. split; [|split].
  - repeat constructor; cbn [representable]; repeat constructor; unfold is_byte; lia.
  - repeat constructor.
  - vm_compute. reflexivity.
Qed.

(** A file cut short (a crash while writing) at any point is never silently read
    as complete: the stream fails. *)
Theorem C16_truncated_file_fails : forall os ts n,
  Forall representable os -> Forall2 matching os ts ->
  (n < length (write_objs os))%nat ->
  read_objs ts (firstn n (write_objs os)) = None.
Proof. exact read_objs_truncated. Qed.
Print Assumptions C16_truncated_file_fails.

(** Pre-sizing is necessary: a vector is written without its length, so a file
    holding one vector is byte for byte the file holding any two pieces of it. *)
Theorem C16_vector_length_not_recorded : forall w a b,
  write_objs [OVec w (a ++ b)] = write_objs [OVec w a; OVec w b].
Proof.
  intros w a b. cbn [write_objs write_obj]. rewrite !app_nil_r. apply vec_split_ambiguous.
Qed.
Print Assumptions C16_vector_length_not_recorded.
