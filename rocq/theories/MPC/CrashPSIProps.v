(** Property C113 for the cwPRF-based PSI (mpc/psi/cwprf_psi.hpp). *)
From Coq Require Import NArith ZArith List Bool Arith Lia.
From Verif.Base Require Import Words ListX.
From Verif.Group Require Import ECModel ZqGroup.
From Verif.PKE Require Import DlogProps ElGamalModel ElGamalProps.
From Verif.Net Require Import ChannelModel ChannelSpec PartyModel PartyProofs CrashModel CrashProps.
From Verif.MPC Require Import CwModel CwSpec CwProps.
Import ListNotations.
Local Open Scope N_scope.

(** The sender of a PSI stops at any point, any number of its messages arrive: the receiver returns the intersection of the
    complete run or nothing; and it never returns if the sender stops before it has sent its first message. *)
Theorem C113_psi_receiver : forall G (C : X25519) e1 e2 pp X Y, length Y = SENDER_ITEM_NUM pp -> length X = RECEIVER_ITEM_NUM pp ->
  (TRUNCATE_LEN pp <= 32)%nat -> N.of_nat (RECEIVER_ITEM_NUM pp) < 2 ^ 59 ->
  exists keep, (forall x, keep x = true <-> exists y, In y Y /\ firstn (TRUNCATE_LEN pp) (xtag C e1 e2 y) = firstn (TRUNCATE_LEN pp) (xtag C e1 e2 x)) /\
  (forall k s j n t, steps k (mkNet (PSI_Receive G C e2 pp X) (PSI_Send G C e1 pp Y) [] []) s -> alones n (stopped j s) t ->
     pa t <> Fail /\ forall out, pa t = Ret out -> out = filter keep X) /\
  (forall j n t, alones n (stopped j (mkNet (PSI_Receive G C e2 pp X) (PSI_Send G C e1 pp Y) [] [])) t -> forall out, pa t <> Ret out).
Proof.
  intros G C e1 e2 pp X Y LY LX LT LN. destruct (C63_receive G C e1 e2 pp X Y LY LX LT LN) as [keep [E K]].
  apply ends_sym in E. exists keep. split; [exact K|]. split.
  - destruct (C113_never_wrong G _ _ _ _ E) as [N W]. intros k s j n t S1 S2. destruct (W k s j n t S1 S2) as (_ & F & R & _). auto.
  - intros j n t S2 out. refine (C113_hangs_refuted G _ _ _ _ E 0%nat _ j (steps_0 G _) _ n t out S2). right. cbn [pb].
    unfold PSI_Send. rewrite LY, Nat.eqb_refl. eexists. eexists. reflexivity.
Qed.

(** sets of two items *)
Example C113_case : exists keep, forall j n t,
  alones n (stopped j (mkNet (PSI_Receive G4099 toyX 2 (PSI_Setup 40 1 1) [6; 7]) (PSI_Send G4099 toyX 1 (PSI_Setup 40 1 1) [5; 6]) [] [])) t ->
  (pa t <> Fail /\ forall out, pa t = Ret out -> out = filter keep [6; 7]).
Proof.
  destruct (C113_psi_receiver G4099 toyX 1 2 (PSI_Setup 40 1 1) [6; 7] [5; 6]) as [keep [_ [W _]]].
  - reflexivity.
  - reflexivity.
  - vm_compute. lia.
  - vm_compute. reflexivity.
  - exists keep. intros j n t H. exact (W 0%nat _ j n t (steps_0 G4099 _) H).
Qed.

Print Assumptions C113_never_wrong.
Print Assumptions C113_finished_peer.
Print Assumptions C113_hangs_refuted.
Print Assumptions C113_psi_receiver.
