(** Property C121, continued: the parallel loops of crypto/aes.hpp and crypto/otp.hpp compute what their models do. *)
From Coq Require Import NArith ZArith List Lia Bool Arith.
From Verif.Crypto Require Import AESModel AESProps.
From Verif.Par Require Import ParModel ParProps.
Import ListNotations.

(** what array a holds after a loop *)
Definition contents {V} (m : memory V) (a n : nat) : list V := map (fun i => m (a, i)) (seq 0 n).
(** /repo crypto/aes.hpp:141-143, 184-186: data[i] is replaced by its encryption or decryption *)
Definition ecb_loop (f : N -> N) (n : nat) : list (prog N) := pointwise_loop [0] 0 (fun i => i) (fun l => f (hd 0%N l)) n.
(** /repo crypto/otp.hpp:6-12: C[i] = A[i]^B[i], with A array 0, B array 1 and C array 2 *)
Definition xor_loop (n : nat) : list (prog N) := pointwise_loop [0; 1] 2 (fun i => i) (fun l => N.lxor (hd 0%N l) (nth 1 l 0%N)) n.

Lemma injective_id : forall n, injective (fun i => i) n.
Proof. intros n i j _ _ E. exact E. Qed.
Lemma ecb_contents : forall f n m sched, finished (fst (exec sched (ecb_loop f n, m))) ->
  contents (snd (exec sched (ecb_loop f n, m))) 0 n = map f (contents m 0 n).
Proof.
  intros f n m sched F. destruct (C121_pointwise [0] 0 (fun i => i) (fun l => f (hd 0%N l)) n m sched (or_intror (fun i _ => eq_refl)) (injective_id n) F) as [A _].
  unfold contents. rewrite map_map. apply map_ext_in. intros i I. apply in_seq in I. apply (A i). clear - I. lia.
Qed.
Theorem C121_ecb : forall k n m sched,
  (finished (fst (exec sched (ecb_loop (Enc k) n, m))) -> contents (snd (exec sched (ecb_loop (Enc k) n, m))) 0 n = ECBEnc k (contents m 0 n)) /\
  (finished (fst (exec sched (ecb_loop (Dec k) n, m))) -> contents (snd (exec sched (ecb_loop (Dec k) n, m))) 0 n = ECBDec k (contents m 0 n)).
Proof. intros k n m sched. split; apply ecb_contents. Qed.
(** decrypting what was encrypted gives the data back, for every two schedules *)
Theorem C121_ecb_round_trip : forall g salt n (m : memory N) s1 s2, length g = 11%nat -> (salt < 2 ^ 128)%N -> (forall i, i < n -> (m (0%nat, i) < 2 ^ 128)%N) ->
  let m1 := snd (exec s1 (ecb_loop (Enc (GenEncKey salt)) n, m)) in
  finished (fst (exec s1 (ecb_loop (Enc (GenEncKey salt)) n, m))) ->
  finished (fst (exec s2 (ecb_loop (Dec (GenDecKey g salt)) n, m1))) ->
  contents (snd (exec s2 (ecb_loop (Dec (GenDecKey g salt)) n, m1))) 0 n = contents m 0 n.
Proof.
  intros g salt n m s1 s2 Lg Bs Bm m1 F1 F2. rewrite (proj2 (C121_ecb _ n m1 s2) F2). unfold m1. rewrite (proj1 (C121_ecb _ n m s1) F1).
  apply C13_aes_ecb_round_trip; [exact Lg|exact Bs|]. apply Forall_forall. intros d D. unfold contents in D. apply in_map_iff in D. destruct D as [i [<- I]].
  apply in_seq in I. apply Bm. clear - I. lia.
Qed.
Theorem C121_xor : forall n m sched i, finished (fst (exec sched (xor_loop n, m))) -> i < n ->
  snd (exec sched (xor_loop n, m)) (2, i) = N.lxor (m (0, i)) (m (1, i)).
Proof.
  intros n m sched i F LI.
  destruct (C121_pointwise [0; 1] 2 (fun i => i) (fun l => N.lxor (hd 0%N l) (nth 1 l 0%N)) n m sched (or_intror (fun i _ => eq_refl)) (injective_id n) F) as [A _].
  exact (A i LI).
Qed.

(** ** bodies of several assignments *)
(** specification: the assignments one after the other on the values at one index (env a is the value in array a) *)
Definition eval1 {V} (env : nat -> V) (a : assignment V) : nat -> V := let '(srcs, dst, f) := a in fun x => if Nat.eqb x dst then f (map env srcs) else env x.
Definition eval {V} (l : list (assignment V)) (env : nat -> V) : nat -> V := fold_left eval1 l env.
Lemma eval_ext : forall V (l : list (assignment V)) e e', (forall x, e x = e' x) -> forall x, eval l e x = eval l e' x.
Proof.
  intros V. induction l as [|[[srcs dst] f] l IH]; intros e e' E x; [apply E|]. unfold eval. cbn [fold_left]. apply IH. intros y. unfold eval1.
  destruct (Nat.eqb y dst); [|apply E]. f_equal. apply map_ext. exact E.
Qed.
Lemma assigns_run : forall V i (l : list (assignment V)) m a, run (assigns_body l i) m (a, i) = eval l (fun x => m (x, i)) a.
Proof.
  intros V i. induction l as [|[[srcs dst] f] l IH]; intros m a; [reflexivity|]. unfold assigns_body. cbn [each fold_right]. rewrite reads_run. cbn [run].
  etransitivity; [apply IH|]. unfold eval. cbn [fold_left]. apply eval_ext. intros x. unfold eval1. destruct (Nat.eqb_spec x dst) as [->|D].
  - apply setm_same.
  - apply setm_other. congruence.
Qed.
Theorem C121_assignments : forall V (l : list (assignment V)) n m sched, finished (fst (exec sched (assigns_loop l n, m))) ->
  (forall a i, i < n -> snd (exec sched (assigns_loop l n, m)) (a, i) = eval l (fun x => m (x, i)) a) /\
  (forall a i, n <= i -> snd (exec sched (assigns_loop l n, m)) (a, i) = m (a, i)).
Proof.
  intros V l n m sched F.
  assert (W : forall i, within (fun c => snd c = i) (fun c => snd c = i) (assigns_body l i)).
  { intros i. unfold assigns_body. apply each_within. intros [[srcs dst] f] k _ K. apply reads_within; [intros s _; reflexivity|]. intros vs. cbn [within]. split; [reflexivity|exact K]. }
  assert (E : forall c, snd (exec sched (assigns_loop l n, m)) c = seqrun (assigns_loop l n) m c).
  { apply (C121_schedule (fun i c => snd c = i) (fun i c => snd c = i)); [|intros i p P; apply loop_nth in P; destruct P as [_ ->]; apply W|exact F].
    intros i j c _ _ D X. split; congruence. }
  destruct (seq_rows _ snd (assigns_body l) n m W) as [A1 A2]. split; intros a i LI; rewrite E.
  - etransitivity; [apply (A1 (a, i)); exact LI|]. apply assigns_run.
  - apply (A2 (a, i)). exact LI.
Qed.

(** ** instances: two blocks, two interleavings; three bytes *)
Definition mdata : memory N := fun c => N.of_nat (100 * fst c + snd c).
Example C121_ecb_run : let e := ecb_loop (Enc (GenEncKey 5)) 2 in let m1 := snd (exec [0; 1; 1; 0] (e, mdata)) in
  let d := ecb_loop (Dec (GenDecKey (repeat 0%N 11) 5)) 2 in
  finished (fst (exec [0; 1; 1; 0] (e, mdata))) /\ finished (fst (exec [1; 1; 0; 0] (d, m1))) /\ (5 < 2 ^ 128)%N /\ forall i, i < 2 -> (mdata (0%nat, i) < 2 ^ 128)%N.
Proof.
  cbv zeta. split; [intros p [<-|[<-|[]]]; reflexivity|]. split; [intros p [<-|[<-|[]]]; reflexivity|]. split; [reflexivity|].
  intros i L. destruct i as [|[|i]]; [reflexivity|reflexivity|lia].
Qed.
Example C121_xor_run : finished (fst (exec [0; 1; 2; 2; 1; 0; 0; 1; 2] (xor_loop 3, mdata))) /\
  contents (snd (exec [0; 1; 2; 2; 1; 0; 0; 1; 2] (xor_loop 3, mdata))) 2 3 = [100; 100; 100]%N.
Proof. split; [intros p [<-|[<-|[<-|[]]]]; reflexivity|vm_compute; reflexivity]. Qed.

(** Y0 = K0 + m0 and Y1 = (Z - K0) + m1 with K0 = pk r: arrays 0 to 4 are pk, r, Z, m0, m1, arrays 5 to 8 are K0, K1, Y0, Y1 *)
Definition ot_assigns : list (assignment Z) :=
  [([0; 1], 5, fun l => (nth 0 l 0 * nth 1 l 0)%Z); ([2; 5], 6, fun l => (nth 0 l 0 - nth 1 l 0)%Z);
   ([5; 3], 7, fun l => (nth 0 l 0 + nth 1 l 0)%Z); ([6; 4], 8, fun l => (nth 0 l 0 + nth 1 l 0)%Z)].
Example C121_assignments_run : let m := fun c : cell => Z.of_nat (10 * fst c + snd c) in let s := concat (repeat [1; 0] 12) in
  finished (fst (exec s (assigns_loop ot_assigns 2, m))) /\
  map (fun c => snd (exec s (assigns_loop ot_assigns 2, m)) c) [(5, 1); (6, 1); (7, 1); (8, 1); (8, 2)] = [11; 10; 42; 51; 82]%Z.
Proof. split; [vm_compute; intros p [<-|[<-|[]]]; reflexivity|vm_compute; reflexivity]. Qed.

Print Assumptions C121_assignments.
Print Assumptions C121_ecb.
Print Assumptions C121_ecb_round_trip.
Print Assumptions C121_xor.
