(** Properties C90, C91: special soundness of the inner-product argument and of the
    aggregated range proof.  From accepted proofs that share their first messages and answer
    different challenges, the extractors of ExtractSpec and BPExtractSpec compute a witness or
    a relation between the generators. *)
From Coq Require Import NArith ZArith List Lia Bool Arith Setoid Znumtheory.
From Coq Require Import ZifyBool ZifyNat ZifyN.
From Verif.Base Require Import Words ListX.
From Verif.Crypto Require Import BigIntModel BigIntSpec BigIntProofs.
From Verif.Group Require Import ECModel ECProofs ZqGroup.
From Verif.Sigma Require Import SigmaProofs SigmaProps.
From Verif.Bullet Require Import IPModel BPModel BPSpec LagSpec IPProofs BPProofs BPProps LagProofs.
From Verif.Bullet Require Import ExtractSpec ExtractProofs BPExtractSpec BPExtractProofs.
Import ListNotations.
Local Open Scope Z_scope.

Section Props.
Variable G : ECGroup.
Local Notation q := (order G).

(** ** C90 *)
Theorem C90_inner_product_special_soundness : forall pp P k (t : ip_tree G k),
  ip_len G pp = (2 ^ k)%nat -> (k < 64)%nat -> good_tree G k t -> ip_accepted G pp P k t ->
  ip_found_ok G (ip_g G pp) (ip_h G pp) (ip_u G pp) P (ip_extract G k t).
Proof.
  intros pp P k t EN Hk Gt Acc.
  assert (Sz : forall w, is_branch k w -> ip_sizes G pp (fst (branch G k t w)) = true).
  { intros w Hw. destruct (Acc w Hw) as [H [tr [tr' [_ V]]]]. unfold IP_Verify in V. destruct (_ && ip_sizes G pp _) eqn:S in V; [|discriminate].
    apply andb_prop in S. exact (proj2 S). }
  assert (B0 : is_branch k (repeat 0%nat k)).
  { split; [apply repeat_length|]. apply Forall_forall. intros x I. apply repeat_spec in I. subst x. lia. }
  destruct (sizes_inv G pp _ (Sz _ B0)) as [Lg [Lh _]]. rewrite EN in Lg, Lh.
  apply tree_sound; [exact Lg|exact Lh|exact Gt|].
  intros w Hw. cbv zeta. destruct (Acc w Hw) as [H [tr [tr' [EX V]]]].
  rewrite (Verify_spec G H k pp P tr _ EN Hk (Sz w Hw)), EX in V. injection V as V _. apply peqb_true in V.
  apply ip_eq_iff; [|exact V]. apply good_branch; assumption.
Qed.

(** ** C91 *)
Theorem C91_range_proof_special_soundness : forall pp C d (t : bp_tree G d),
  (bp_range G pp * length C = 2 ^ d)%nat -> (d < 64)%nat -> bp_good G pp C t -> bp_accepted G pp C t ->
  bp_found_ok G pp C (bp_extract G (bp_range G pp) (length C) d t).
Proof. intros pp C d t EL Hd Good Acc. apply bp_sound; assumption. Qed.

(** A prover who knows no relation between the generators that the extractor would find
    cannot have a commitment accepted for which they know an opening out of range: two
    openings of one commitment are a relation between g and h. *)
Theorem C91_opening_in_range : forall pp C d (t : bp_tree G d) j r v,
  (bp_range G pp * length C = 2 ^ d)%nat -> (d < 64)%nat -> bp_good G pp C t -> bp_accepted G pp C t ->
  (j < length C)%nat -> nth j C (inf G) = padd G (pmul G (bp_g G pp) r) (pmul G (bp_h G pp) v) ->
  (forall w, in_range (bp_range G pp) w -> ~ cong q v w) ->
  match bp_extract G (bp_range G pp) (length C) d t with
  | BpRelation e => bp_found_ok G pp C (BpRelation e)
  | BpWitness r' v' => relation G [bp_g G pp; bp_h G pp] [r - nth j r' 0; v - nth j v' 0]
  end.
Proof.
  intros pp C d t j r v EL Hd Good Acc Hj EC Out. pose proof (C91_range_proof_special_soundness pp C d t EL Hd Good Acc) as Ok.
  destruct (bp_extract G _ _ d t) as [r' v'|e]; [|exact Ok]. cbn [bp_found_ok] in Ok. destruct Ok as [[Lr [Lv CM]] RG].
  specialize (CM j Hj). rewrite Forall_forall in RG. assert (RV : in_range (bp_range G pp) (nth j v' 0)) by (apply RG, nth_In; lia).
  specialize (Out _ RV). split; [reflexivity|]. split.
  - rewrite EC in CM. cbn [msum]. apply (f_equal (fun P => psub G P (padd G (pmul G (bp_g G pp) (nth j r' 0)) (pmul G (bp_h G pp) (nth j v' 0))))) in CM.
    unfold psub in CM at 2. rewrite padd_neg in CM. rewrite padd_inf, <- CM. generalize (nth j r' 0) (nth j v' 0). bpgen. clear. intros. logs G. gring.
  - cbn [zeros forallb]. rewrite andb_true_r. apply andb_false_iff. right. apply Z.eqb_neq. intros Z0. apply Out.
    apply (sub_cong0 q). apply (cong0_mod q (order_prime G)). exact Z0.
Qed.
End Props.

(** ** the hypotheses are met by concrete data: honest proofs under hash functions that give
    different challenges; the transcripts of the rounds have different lengths *)
Definition by_length (l : list (nat * Z)) (tr : list N) : Z :=
  match find (fun c => (fst c =? length tr)%nat) l with Some c => snd c | None => 1 end.
Definition blen : nat := length (ToByteString G101 (pgen G101)).
Definition bilen : nat := length (BigInt_ToByteString 5).

Definition ip101 : IPPP G101 := {| ip_len := 2; ip_g := map p101 [3; 14]; ip_h := map p101 [27; 18]; ip_u := p101 31 |}.
Definition P101 : pt G101 :=
  padd G101 (padd G101 (msum G101 (map p101 [3; 14]) [4; 5]) (msum G101 (map p101 [27; 18]) [6; 7])) (pmul G101 (p101 31) (dot [4; 5] [6; 7])).
Definition iprf101 (i : nat) : IPProof G101 :=
  match IP_Prove G101 (fun _ => Z.of_nat (i + 2)) ip101 P101 [4; 5] [6; 7] [] with Some (p, _) => p | None => {| ipL := []; ipR := []; ipa := 0; ipb := 0 |} end.
Definition itree101 : ip_tree G101 1 :=
  {| nL := hd (inf G101) (ipL G101 (iprf101 0)); nR := hd (inf G101) (ipR G101 (iprf101 0)); nx := fun i => Z.of_nat (i + 2);
     nt := fun i => (ipa G101 (iprf101 i), ipb G101 (iprf101 i)) |}.

Lemma distinct101 : forall n y, forallb (fun i => forallb (fun j => (i =? j)%nat || negb ((y i - y j) mod 101 =? 0)) (seq 0 n)) (seq 0 n) = true ->
  distinct (order G101) n y.
Proof.
  intros n y E i j Hi Hj Ne C. rewrite forallb_forall in E. specialize (E i ltac:(apply in_seq; lia)). rewrite forallb_forall in E. specialize (E j ltac:(apply in_seq; lia)).
  apply orb_prop in E. destruct E as [E|E]; [apply Nat.eqb_eq in E; contradiction|]. apply negb_true_iff, Z.eqb_neq in E. apply E.
  destruct C as [k C]. change (order G101) with 101 in C. rewrite C, Z.add_simpl_l, Z.mod_mul by lia. reflexivity.
Qed.

Example C90_hypotheses : good_tree G101 1 itree101 /\ ip_accepted G101 ip101 P101 1 itree101 /\
  exists a b, ip_extract G101 1 itree101 = IpWitness a b /\ map (fun c => c mod 101) a = [4; 5] /\ map (fun c => c mod 101) b = [6; 7].
Proof.
  split; [|split].
  - cbn [good_tree]. split; [|split].
    + intros [|[|[|[|i]]]] Hi; try lia; apply unit101; reflexivity.
    + apply distinct101. vm_compute. reflexivity.
    + intros; exact I.
  - intros w [Lw Fw]. destruct w as [|i [|? ?]]; try discriminate. inversion_clear Fw as [|? ? Hi _].
    exists (fun _ => Z.of_nat (i + 2)), [], (snd (IP_challenges G101 (fun _ => Z.of_nat (i + 2)) [] (ipL G101 (iprf101 i)) (ipR G101 (iprf101 i)))).
    destruct i as [|[|[|[|i]]]]; try lia; vm_compute; split; reflexivity.
  - eexists. eexists. split; [vm_compute; reflexivity|]. split; reflexivity.
Qed.

(** a range of one bit, one commitment: 18 proofs of the value 1 *)
Definition bpx : BPPP G101 := {| bp_range := 1; bp_g := pgen G101; bp_h := p101 9; bp_u := p101 31; bp_vg := [p101 3]; bp_vh := [p101 27] |}.
Definition rnx : BPRand := {| rd_alpha := 33; rd_sL := [5]; rd_sR := [90]; rd_rho := 12; rd_tau1 := 44; rd_tau2 := 55 |}.
Definition Cx : list (pt G101) := [padd G101 (pmul G101 (pgen G101) 21) (pmul G101 (p101 9) 1)].
Definition zx (j : nat) : Z := Z.of_nat (j + 11).
Definition xx (k : nat) : Z := Z.of_nat (k + 21).
Definition ech (l : nat) : Z := Z.of_nat (l + 31).
Definition Hx (j k l : nat) : list N -> Z :=
  by_length [(blen, 3%Z); (2 * blen, zx j); (4 * blen, xx k); (4 * blen + bilen, ech l)]%nat.
Definition bprf (j k l : nat) : BPProof G101 :=
  match BP_Prove G101 (Hx j k l) bpx Cx [21] [1] [] rnx with
  | Some (p, _) => p
  | None => {| bpA := inf G101; bpS := inf G101; bpT1 := inf G101; bpT2 := inf G101; bptaux := 0; bpmu := 0; bptx := 0;
               bpip := {| ipL := []; ipR := []; ipa := 0; ipb := 0 |} |}
  end.
Definition nums : list (list Z) := Eval vm_compute in
  flat_map (fun j => flat_map (fun k => map (fun l => let p := bprf j k l in
    [bptaux G101 p; bpmu G101 p; bptx G101 p; ipa G101 (bpip G101 p); ipb G101 (bpip G101 p)]) (seq 0 2)) (seq 0 3)) (seq 0 3).
Definition num (f j k l : nat) : Z := nth f (nth (j * 6 + k * 2 + l) nums []) 0.
Definition ipx (_ j k l : nat) : ip_tree G101 0 := (num 3 j k l, num 4 j k l).
Definition btree : bp_tree G101 0 :=
  {| tA := bpA G101 (bprf 0 0 0); ty := fun _ => 3; tS := fun _ => bpS G101 (bprf 0 0 0); tz := fun _ => zx;
     tT1 := fun _ j => bpT1 G101 (bprf j 0 0); tT2 := fun _ j => bpT2 G101 (bprf j 0 0);
     tch := fun _ _ => xx; te := fun _ _ _ => ech;
     ttaux := fun _ => num 0; tmu := fun _ => num 1; ttx := fun _ => num 2; tip := ipx |}.

Definition accepts (j k l : nat) : bool :=
  let p := bp_branch G101 btree 0 j k l [] in
  (y_of G101 (Hx j k l) [] p =? 3) && (z_of G101 (Hx j k l) [] p =? zx j) && (x_of G101 (Hx j k l) [] p =? xx k) && (e_of G101 (Hx j k l) [] p =? ech l) &&
  match BP_Verify G101 (Hx j k l) bpx Cx [] p with Some (b, _) => b | None => false end.
Lemma accepts_all : forallb (fun j => forallb (fun k => forallb (accepts j k) (seq 0 2)) (seq 0 3)) (seq 0 3) = true.
Proof. vm_compute. reflexivity. Qed.

Example C91_hypotheses : (bp_range G101 bpx * length Cx = 2 ^ 0)%nat /\ bp_good G101 bpx Cx btree /\ bp_accepted G101 bpx Cx btree /\
  exists r, bp_extract G101 1 1 0 btree = BpWitness [r] [1] /\ r mod 101 = 21.
Proof.
  split; [reflexivity|]. split; [|split].
  - unfold bp_good. cbn [bp_range bpx length Cx Nat.mul Nat.add]. split; [|split; [|split; [|split]]].
    + apply distinct101. reflexivity.
    + intros i Hi. split; [apply unit101; reflexivity|]. apply distinct101. vm_compute. reflexivity.
    + intros. apply distinct101. vm_compute. reflexivity.
    + intros. apply distinct101. vm_compute. reflexivity.
    + intros i j k l _ _ _ Hl. split; [|exact I]. destruct l as [|[|l]]; try lia; apply unit101; reflexivity.
  - intros i j k l w Hi Hj Hk Hl [Lw _]. cbn [bp_range bpx length Cx Nat.mul Nat.add] in Hi, Hj. assert (i = 0%nat) by lia. subst i. destruct w; [|discriminate].
    pose proof accepts_all as A. rewrite forallb_forall in A. specialize (A j ltac:(apply in_seq; lia)).
    rewrite forallb_forall in A. specialize (A k ltac:(apply in_seq; lia)). rewrite forallb_forall in A. specialize (A l ltac:(apply in_seq; lia)).
    unfold accepts in A. cbv zeta in A. apply andb_prop in A. destruct A as [A V]. apply andb_prop in A. destruct A as [A Ee].
    apply andb_prop in A. destruct A as [A Ex]. apply andb_prop in A. destruct A as [Ey Ez]. apply Z.eqb_eq in Ey, Ez, Ex, Ee.
    destruct (BP_Verify G101 (Hx j k l) bpx Cx [] (bp_branch G101 btree 0 j k l [])) as [[b tr']|] eqn:EV; [|discriminate]. subst b.
    exists (Hx j k l), [], tr'. cbv zeta. repeat split; assumption.
  - eexists. split; [vm_compute; reflexivity|]. reflexivity.
Qed.

Print Assumptions C90_inner_product_special_soundness.
Print Assumptions C91_range_proof_special_soundness.
Print Assumptions C91_opening_in_range.
