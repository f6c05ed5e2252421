(** Parts of grids (C98) and changes of variables (C99). *)
From Coq Require Import Reals Lra Lia List.
From Coquelicot Require Import Coquelicot.
From Verif Require Import PyBase IndexModel DMModel StructModel StructsModel IneqModel DaeModel NumModel NumInst PolynomialModel PiecewiseModel PdqModel SchemeModel
  PolySpec PdqSpec SchemeSpec PolyMath PolynomialBase PdqThms SchemeThms SchemeThms2 SchemeThms3 SchemeThms4 OrderSpec OrderMath OrderThms ConvSpec ConvThms GridSpec.
Open Scope R_scope.

(** ** Schemes in terms of given Runge-Kutta coefficients *)
Section All.
Context (cspts : nat -> string -> res (list R)) (f : daefun R) (t : list R) (order : nat) (method : string) (tau : list R) (g : option (R -> mat R)) (rep : bool) (x K Z u p : mat R).
Context (HP : Points cspts order method tau) (HL : (2 <= length t)%nat) (HD : DaeOk f) (HT : TdpOk f g) (HV : VarsOk f (ivals t) order rep x K Z u p).
Notation N := (ivals t).

Lemma eqs_rk A b A' b' : RungeKutta tau A b -> RungeKutta tau A' b' -> CollocationEqs f t tau order A b rep g x K Z u p -> CollocationEqs f t tau order A' b' rep g x K Z u p.
Proof.
  clear HL HT HV. intros HR HR' (C1 & C2 & C3). pose proof HP as (_ & Hd & HM & _). pose proof (rk_unique tau A b A' b' Hd HR HR') as U. rewrite HM in U. split; [|split; [|exact C3]].
  - intros n j r Hn Hj Hr. rewrite <- (C1 n j r Hn Hj Hr). destruct HD as [D1 _]. apply D1. repeat split; try (intros; reflexivity). intros i Hi. cbn. unfold stage_x. do 2 f_equal. apply Sum_ext. intros l Hl. now rewrite (proj2 (U l Hl) j Hj).
  - intros n i Hn Hi. rewrite <- (C2 n i Hn Hi). do 2 f_equal. apply Sum_ext. intros l Hl. now rewrite (proj1 (U l Hl)).
Qed.
Lemma scheme_all A b : RungeKutta tau A b -> exists s e, scheme_ cspts f t order method g rep x K Z u p = Ok s /\ veccat_master (sc_eq s) = Ok e /\ (AllZero e <-> CollocationEqs f t tau order A b rep g x K Z u p) /\
  (forall i n j, (i < f_nx f)%nat -> (n < N)%nat -> (j < order)%nat -> at_m (sc_X s) i (n * order + j) = stage_x t order A x K n j i) /\
  length (sc_tc s) = (N * order)%nat /\ (forall n j, (n < N)%nat -> (j < order)%nat -> node (sc_tc s) (n * order + j) = stage_t t tau n j) /\
  (forall i, (i < f_nq f)%nat -> at_m (sc_q s) i 0 = 0) /\
  (forall i n, (i < f_nq f)%nat -> (n < N)%nat -> at_m (sc_q s) i (n + 1) = at_m (sc_q s) i n + step t n * Sum order (fun l => b l * f_quad f (stage t tau order A rep g x K Z u p n l) i)) /\
  (forall i n j, (i < f_nq f)%nat -> (n < N)%nat -> (j < order)%nat -> at_m (sc_Q s) i (n * order + j) = at_m (sc_q s) i n + step t n * Sum order (fun l => A j l * f_quad f (stage t tau order A rep g x K Z u p n l) i)).
Proof.
  intros HR. destruct HP as (_ & Hd & Hlen & H1). destruct (scheme_equations cspts f t order method tau g rep x K Z u p HP HL HD HT HV) as (s & A1 & b1 & e & Es & HR1 & _ & HX & Lt & Ht & _ & _ & Ee & He).
  destruct (scheme_quadratures cspts f t order method tau g rep x K Z u p HP HL HD HT HV) as (s2 & A2 & b2 & E2 & HR2 & _ & Hq & _ & Hq0 & Hqn & _ & HQ). rewrite Es in E2. injection E2 as <-.
  pose proof (rk_unique tau A1 b1 A b Hd HR1 HR) as U1. pose proof (rk_unique tau A2 b2 A b Hd HR2 HR) as U2. rewrite Hlen in U1, U2.
  exists s, e. split; [exact Es|]. split; [exact Ee|]. split; [split; [intros Hz; apply (eqs_rk A1 b1 A b HR1 HR); exact (proj1 He Hz)|intros C; exact (proj2 He (eqs_rk A b A1 b1 HR HR1 C))]|].
  split; [intros i n j Hi Hn Hj; rewrite HX by assumption; unfold stage_x; do 2 f_equal; apply Sum_ext; intros l Hl; now rewrite (proj2 (U1 l Hl) j Hj)|]. split; [exact Lt|]. split; [exact Ht|]. split; [exact Hq0|].
  assert (Q : forall i n j, (n < N)%nat -> (j < order)%nat -> at_m (sc_quad s) i (n * order + j) = f_quad f (stage t tau order A rep g x K Z u p n j) i).
  { intros i n j Hn Hj. rewrite Hq by assumption. destruct HD as (_ & D2 & _). apply D2. repeat split; intros; cbn; try reflexivity. unfold stage_x. do 2 f_equal. apply Sum_ext. intros l Hl. now rewrite (proj2 (U2 l Hl) j Hj). }
  split; [intros i n Hi Hn; rewrite Hqn by assumption|intros i n j Hi Hn Hj; rewrite HQ by assumption]; do 2 f_equal; apply Sum_ext; intros l Hl; rewrite Q by assumption; f_equal; [apply U2|apply (proj2 (U2 l Hl) j Hj)]; exact Hl.
Qed.
End All.

(** ** Parts of a grid *)
Lemma part_len t a b : (a <= b < length t)%nat -> length (part t a b) = S (b - a).
Proof. intros H. unfold part. rewrite firstn_length, skipn_length. lia. Qed.
Lemma nth_skipn_ {A} (l : list A) a n d : nth n (skipn a l) d = nth (a + n) l d.
Proof. revert l. induction a as [|a IH]; intros [|x l]; simpl; auto. now destruct n. Qed.
Lemma nth_firstn_ {A} (l : list A) k n d : (n < k)%nat -> nth n (firstn k l) d = nth n l d.
Proof. revert l n. induction k as [|k IH]; intros [|x l] [|n] H; simpl; auto; try lia. apply IH. lia. Qed.
Lemma part_node t a b n : (a <= b < length t)%nat -> (n <= b - a)%nat -> node (part t a b) n = node t (a + n).
Proof. intros H Hn. unfold node, part. rewrite nth_firstn_ by lia. apply nth_skipn_. Qed.
Lemma part_ivals t a b : (a <= b < length t)%nat -> ivals (part t a b) = (b - a)%nat.
Proof. intros H. unfold ivals. rewrite part_len by exact H. lia. Qed.
Lemma part_step t a b n : (a <= b < length t)%nat -> (n < b - a)%nat -> step (part t a b) n = step t (a + n).
Proof. intros H Hn. unfold step. rewrite !part_node by (assumption || lia). now rewrite Nat.add_assoc. Qed.

Section Part.
Context (f : daefun R) (t tau : list R) (M : nat) (rep : bool) (g : option (R -> mat R)) (x K Z u p : mat R) (A : nat -> nat -> R) (w : nat -> R) (HD : DaeOk f).
Notation st n j := (stage t tau M A rep g x K Z u p n j).
Notation pst a b n j := (stage (part t a b) tau M A rep g (mcols x a (S b)) (mcols K (a * M) (b * M)) (mcols Z (a * M) (b * M)) (mcols u a b) (ppart rep M p a b) n j).
Lemma part_stage a b n j : (a <= b < length t)%nat -> (n < b - a)%nat -> (j < M)%nat -> SameArgs f (pst a b n j) (st (a + n) j).
Proof.
  intros H Hn Hj. assert (E : forall c, (a * M + (n * M + c) = (a + n) * M + c)%nat) by (intros; ring).
  assert (Et : stage_t (part t a b) tau n j = stage_t t tau (a + n) j) by (unfold stage_t; rewrite part_node, part_step by (assumption || lia); reflexivity).
  repeat split; intros; cbn; rewrite ?E, ?Et; try reflexivity.
  - unfold stage_x. cbn. rewrite part_step by assumption. do 2 f_equal. apply Sum_ext. intros l Hl. now rewrite E.
  - unfold ppart. destruct rep; cbn; [now rewrite E|reflexivity].
Qed.
Lemma part_stage_x a b n j i : (a <= b < length t)%nat -> (n < b - a)%nat -> stage_x (part t a b) M A (mcols x a (S b)) (mcols K (a * M) (b * M)) n j i = stage_x t M A x K (a + n) j i.
Proof. intros H Hn. unfold stage_x. cbn. rewrite part_step by assumption. do 2 f_equal. apply Sum_ext. intros l Hl. do 2 f_equal. ring. Qed.
(** The equations of the intervals [a] to [b - 1] *)
Lemma part_eqs a b : (a < b < length t)%nat -> CollocationEqs f (part t a b) tau M A w rep g (mcols x a (S b)) (mcols K (a * M) (b * M)) (mcols Z (a * M) (b * M)) (mcols u a b) (ppart rep M p a b) <->
  (forall n j r, (a <= n < b)%nat -> (j < M)%nat -> (r < f_ndae f)%nat -> f_dae f (st n j) r = 0) /\
  (forall n i, (a <= n < b)%nat -> (i < f_nx f)%nat -> at_m x i n + step t n * Sum M (fun l => w l * at_m K i (n * M + l)%nat) = at_m x i (n + 1)) /\
  (rep = true -> forall i k l, (i < f_np f)%nat -> (a * M <= k < b * M)%nat -> (a * M <= l < b * M)%nat -> at_m p i k = at_m p i l).
Proof.
  intros H. assert (H' : (a <= b < length t)%nat) by lia. unfold CollocationEqs. rewrite part_ivals by exact H'. destruct HD as [D1 _].
  assert (F2 : forall n i, (n < b - a)%nat -> (at_m (mcols x a (S b)) i n + step (part t a b) n * Sum M (fun l => w l * at_m (mcols K (a * M) (b * M)) i (n * M + l)%nat) = at_m (mcols x a (S b)) i (n + 1) <->
    at_m x i (a + n) + step t (a + n) * Sum M (fun l => w l * at_m K i ((a + n) * M + l)%nat) = at_m x i (a + n + 1))).
  { intros n i Hn. cbn. rewrite part_step by assumption. rewrite Nat.add_assoc. rewrite (Sum_ext M _ (fun l => w l * at_m K i ((a + n) * M + l)%nat)) by (intros l Hl; do 2 f_equal; ring). reflexivity. }
  split; intros (C1 & C2 & C3); split; [|split| |split].
  - intros n j r Hn Hj Hr. rewrite <- (C1 (n - a)%nat j r ltac:(lia) Hj Hr). symmetry. replace n with (a + (n - a))%nat at 2 by lia. apply D1, part_stage; (assumption || lia).
  - intros n i Hn Hi. specialize (C2 (n - a)%nat i ltac:(lia) Hi). apply F2 in C2; [|lia]. now replace (a + (n - a))%nat with n in C2 by lia.
  - intros Hr i k l Hi Hk Hl. unfold ppart in C3. rewrite Hr in C3. specialize (C3 eq_refl i (k - a * M)%nat (l - a * M)%nat Hi). cbn in C3. rewrite Nat.mul_sub_distr_r in C3. specialize (C3 ltac:(lia) ltac:(lia)).
    now replace (a * M + (k - a * M))%nat with k in C3 by lia; replace (a * M + (l - a * M))%nat with l in C3 by lia.
  - intros n j r Hn Hj Hr. rewrite <- (C1 (a + n)%nat j r ltac:(lia) Hj Hr). apply D1, part_stage; (assumption || lia).
  - intros n i Hn Hi. apply F2; [exact Hn|]. apply C2; (assumption || lia).
  - intros Hr i k l Hi Hk Hl. unfold ppart. rewrite Hr. cbn. rewrite Nat.mul_sub_distr_r in Hk, Hl. apply C3; (assumption || lia).
Qed.
End Part.
Lemma col_split c N M : (c < N * M)%nat -> exists n j, c = (n * M + j)%nat /\ (n < N)%nat /\ (j < M)%nat.
Proof. intros H. assert (M <> 0%nat) by nia. exists (c / M)%nat, (c mod M)%nat. split; [rewrite Nat.mul_comm; now apply Nat.div_mod|]. split; [apply Nat.div_lt_upper_bound; nia|now apply Nat.mod_upper_bound]. Qed.

Section Split.
Context (cspts : nat -> string -> res (list R)) (f : daefun R) (t : list R) (order : nat) (method : string) (tau : list R) (g : option (R -> mat R)) (rep : bool) (x K Z u p : mat R).
Context (HP : Points cspts order method tau) (HD : DaeOk f) (HT : TdpOk f g) (HV : VarsOk f (ivals t) order rep x K Z u p).
Notation N := (ivals t).
Notation sub a b := (scheme_ cspts f (part t a b) order method g rep (mcols x a (S b)) (mcols K (a * order) (b * order)) (mcols Z (a * order) (b * order)) (mcols u a b) (ppart rep order p a b)).

(** What the scheme of a part has in common with the whole one *)
Lemma part_scheme a b A w : RungeKutta tau A w -> (a < b <= N)%nat -> exists s e, sub a b = Ok s /\ veccat_master (sc_eq s) = Ok e /\
  (AllZero e <-> (forall n j r, (a <= n < b)%nat -> (j < order)%nat -> (r < f_ndae f)%nat -> f_dae f (stage t tau order A rep g x K Z u p n j) r = 0) /\
    (forall n i, (a <= n < b)%nat -> (i < f_nx f)%nat -> at_m x i n + step t n * Sum order (fun l => w l * at_m K i (n * order + l)%nat) = at_m x i (n + 1)) /\
    (rep = true -> forall i k l, (i < f_np f)%nat -> (a * order <= k < b * order)%nat -> (a * order <= l < b * order)%nat -> at_m p i k = at_m p i l)) /\
  (forall i n j, (i < f_nx f)%nat -> (n < b - a)%nat -> (j < order)%nat -> at_m (sc_X s) i (n * order + j) = stage_x t order A x K (a + n) j i) /\
  length (sc_tc s) = ((b - a) * order)%nat /\ (forall n j, (n < b - a)%nat -> (j < order)%nat -> node (sc_tc s) (n * order + j) = stage_t t tau (a + n) j) /\
  (forall i, (i < f_nq f)%nat -> at_m (sc_q s) i 0 = 0) /\
  (forall i n, (i < f_nq f)%nat -> (n < b - a)%nat -> at_m (sc_q s) i (n + 1) = at_m (sc_q s) i n + step t (a + n) * Sum order (fun l => w l * f_quad f (stage t tau order A rep g x K Z u p (a + n) l) i)) /\
  (forall i n j, (i < f_nq f)%nat -> (n < b - a)%nat -> (j < order)%nat -> at_m (sc_Q s) i (n * order + j) = at_m (sc_q s) i n + step t (a + n) * Sum order (fun l => A j l * f_quad f (stage t tau order A rep g x K Z u p (a + n) l) i)).
Proof.
  intros HR H. assert (H' : (a < b < length t)%nat) by (unfold ivals in H; lia). assert (H'' : (a <= b < length t)%nat) by lia.
  assert (HV' : VarsOk f (ivals (part t a b)) order rep (mcols x a (S b)) (mcols K (a * order) (b * order)) (mcols Z (a * order) (b * order)) (mcols u a b) (ppart rep order p a b)).
  { rewrite part_ivals by exact H''. destruct HV as ([X1 X2] & [K1 K2] & [Z1 Z2] & [U1 U2] & [P1 P2]). assert (E := Nat.mul_sub_distr_r b a order). unfold ppart. repeat split; cbn [mcols nr nc]; try assumption; try lia; destruct rep; cbn [mcols nr nc]; try assumption; try lia. }
  destruct (scheme_all cspts f (part t a b) order method tau g rep _ _ _ _ _ HP ltac:(rewrite part_len by exact H''; lia) HD HT HV' A w HR) as (s & e & Es & Ee & Hz & HX & Lt & Ht & Hq0 & Hqn & HQ). rewrite part_ivals in * by exact H''.
  exists s, e. split; [exact Es|]. split; [exact Ee|]. split; [rewrite Hz; apply part_eqs; assumption|]. split; [intros i n j Hi Hn Hj; rewrite HX by assumption; now apply part_stage_x|]. split; [exact Lt|].
  split; [intros n j Hn Hj; rewrite Ht by assumption; unfold stage_t; now rewrite part_node, part_step by (assumption || lia)|]. split; [exact Hq0|]. destruct HD as (_ & D2 & _).
  split; [intros i n Hi Hn; rewrite Hqn by assumption|intros i n j Hi Hn Hj; rewrite HQ by assumption]; rewrite part_step by assumption; do 2 f_equal; apply Sum_ext; intros l Hl; f_equal; apply D2, part_stage; assumption.
Qed.

Theorem split_scheme k : (0 < k < N)%nat -> exists s s1 s2 e e1 e2,
  scheme_ cspts f t order method g rep x K Z u p = Ok s /\ sub 0 k = Ok s1 /\ sub k N = Ok s2 /\ veccat_master (sc_eq s) = Ok e /\ veccat_master (sc_eq s1) = Ok e1 /\ veccat_master (sc_eq s2) = Ok e2 /\
  (AllZero e <-> AllZero e1 /\ AllZero e2 /\ (rep = true -> forall i, (i < f_np f)%nat -> at_m p i 0 = at_m p i (k * order))) /\
  sc_tc s = sc_tc s1 ++ sc_tc s2 /\
  (forall i c, (i < f_nx f)%nat -> (c < k * order)%nat -> at_m (sc_X s) i c = at_m (sc_X s1) i c) /\
  (forall i c, (i < f_nx f)%nat -> (c < (N - k) * order)%nat -> at_m (sc_X s) i (k * order + c) = at_m (sc_X s2) i c) /\
  (forall i n, (i < f_nq f)%nat -> (n <= k)%nat -> at_m (sc_q s) i n = at_m (sc_q s1) i n) /\
  (forall i n, (i < f_nq f)%nat -> (n <= N - k)%nat -> at_m (sc_q s) i (k + n) = at_m (sc_q s1) i k + at_m (sc_q s2) i n) /\
  (forall i c, (i < f_nq f)%nat -> (c < k * order)%nat -> at_m (sc_Q s) i c = at_m (sc_Q s1) i c) /\
  (forall i c, (i < f_nq f)%nat -> (c < (N - k) * order)%nat -> at_m (sc_Q s) i (k * order + c) = at_m (sc_q s1) i k + at_m (sc_Q s2) i c).
Proof.
  intros Hk. pose proof HP as (_ & Hd & HM & H1). destruct (tbl_ok cspts order method tau HP) as (_ & _ & _ & _ & _ & HR). assert (HL : (2 <= length t)%nat) by (unfold ivals in Hk; lia).
  destruct (scheme_all cspts f t order method tau g rep x K Z u p HP HL HD HT HV _ _ HR) as (s & e & Es & Ee & Hz & HX & Lt & Ht & Hq0 & Hqn & HQ).
  destruct (part_scheme 0 k _ _ HR ltac:(lia)) as (s1 & e1 & Es1 & Ee1 & Hz1 & HX1 & Lt1 & Ht1 & Hq01 & Hqn1 & HQ1). destruct (part_scheme k N _ _ HR ltac:(lia)) as (s2 & e2 & Es2 & Ee2 & Hz2 & HX2 & Lt2 & Ht2 & Hq02 & Hqn2 & HQ2).
  rewrite Nat.sub_0_r in *. cbn [Nat.add] in *.
  assert (Q1 : forall i n, (i < f_nq f)%nat -> (n <= k)%nat -> at_m (sc_q s) i n = at_m (sc_q s1) i n).
  { intros i n Hi. induction n as [|n IH]; intros Hn; [now rewrite Hq0, Hq01|]. replace (S n) with (n + 1)%nat by lia. rewrite Hqn, Hqn1 by (assumption || lia). now rewrite IH by lia. }
  assert (Q2 : forall i n, (i < f_nq f)%nat -> (n <= N - k)%nat -> at_m (sc_q s) i (k + n) = at_m (sc_q s1) i k + at_m (sc_q s2) i n).
  { intros i n Hi. induction n as [|n IH]; intros Hn; [rewrite Nat.add_0_r, Hq02, Q1 by (assumption || lia); ring|]. replace (k + S n)%nat with (k + n + 1)%nat by lia. rewrite Hqn by (assumption || lia). rewrite IH by lia. replace (S n) with (n + 1)%nat by lia. rewrite Hqn2 by (assumption || lia). ring. }
  exists s, s1, s2, e, e1, e2. do 6 (split; [assumption|]). split; [|split; [|split; [|split; [|split; [exact Q1|split; [exact Q2|split]]]]]].
  - rewrite Hz, Hz1, Hz2. unfold CollocationEqs. split.
    + intros (C1 & C2 & C3). repeat split; intros; try (apply C1; (assumption || lia)); try (apply C2; (assumption || lia)); apply C3; try assumption; nia.
    + intros ((C1 & C2 & C3) & (B1 & B2 & B3) & P). split; [|split].
      * intros n j r Hn Hj Hr. destruct (Nat.lt_ge_cases n k); [apply C1|apply B1]; (assumption || lia).
      * intros n i Hn Hi. destruct (Nat.lt_ge_cases n k); [apply C2|apply B2]; (assumption || lia).
      * intros Hr i c l Hi Hc Hl. assert (P0 : forall c, (c < N * order)%nat -> at_m p i c = at_m p i 0).
        { intros c' Hc'. destruct (Nat.lt_ge_cases c' (k * order)); [apply C3; try assumption; nia|]. rewrite (P Hr i Hi). apply B3; try assumption; nia. }
        now rewrite (P0 c Hc), (P0 l Hl).
  - apply (nth_ext _ _ 0 0); [rewrite app_length, Lt, Lt1, Lt2; nia|]. intros c Hc. rewrite Lt in Hc. destruct (Nat.lt_ge_cases c (k * order)).
    + rewrite app_nth1 by lia. destruct (col_split c k order) as (n & j & -> & Hn & Hj); [assumption|]. change (node (sc_tc s) (n * order + j) = node (sc_tc s1) (n * order + j)). rewrite Ht, Ht1 by (assumption || lia). reflexivity.
    + rewrite app_nth2 by lia. rewrite Lt1. destruct (col_split (c - k * order) (N - k) order) as (n & j & E & Hn & Hj); [nia|]. rewrite E. replace c with ((k + n) * order + j)%nat by nia. change (node (sc_tc s) ((k + n) * order + j) = node (sc_tc s2) (n * order + j)). rewrite Ht, Ht2 by (assumption || lia). reflexivity.
  - intros i c Hi Hc. destruct (col_split c k order Hc) as (n & j & -> & Hn & Hj). rewrite HX, HX1 by (assumption || lia). reflexivity.
  - intros i c Hi Hc. destruct (col_split c _ order Hc) as (n & j & -> & Hn & Hj). replace (k * order + (n * order + j))%nat with ((k + n) * order + j)%nat by ring. rewrite HX, HX2 by (assumption || lia). reflexivity.
  - intros i c Hi Hc. destruct (col_split c k order Hc) as (n & j & -> & Hn & Hj). rewrite HQ, HQ1 by (assumption || lia). rewrite Q1 by (assumption || lia). reflexivity.
  - intros i c Hi Hc. destruct (col_split c _ order Hc) as (n & j & -> & Hn & Hj). replace (k * order + (n * order + j))%nat with ((k + n) * order + j)%nat by ring. rewrite HQ, HQ2 by (assumption || lia). rewrite Q2 by (assumption || lia). ring.
Qed.
End Split.

(** ** Integrating in two stages *)
Lemma part_asc t a b : Asc t -> (a <= b < length t)%nat -> Asc (part t a b).
Proof. intros HA H i j Hij. rewrite part_len in Hij by exact H. rewrite !part_node by (assumption || lia). apply HA. lia. Qed.
Lemma part_short t al L a b : ShortSteps t al L -> (a <= b < length t)%nat -> ShortSteps (part t a b) al L.
Proof. intros [H1 H2] H. split; [exact H1|]. rewrite part_ivals by exact H. intros n Hn. rewrite part_step by assumption. apply H2. unfold ivals. lia. Qed.

Section IntSplit.
Context (cspts : nat -> string -> res (list R)) (f : daefun R) (t : list R) (order : nat) (method : string) (tau : list R) (g : option (R -> mat R)).
Context (HP : Points cspts order method tau) (HD : DaeOk f) (HT : TdpOk f g) (Hsq : f_ndae f = (f_nx f + f_nz f)%nat) (HA : Asc t).
Context (al L : R) (Hal : CoefBound tau al) (Hss : ShortSteps t al L) (Lip : LipDae f L).
Context (x0 : nat -> R) (u p : mat R) (Hu : Shaped u (f_nu f) (ivals t)) (Hp : Shaped p (f_np f) 1).
Notation N := (ivals t).
Notation integ rf nan t x0 z0 u := (integrator_ rf nan cspts f t order method g x0 z0 u p).

(** The integrator over a part returns that part of any solution that starts at the same state. *)
Lemma part_integrator a b rf nan x0' z0 out x K Z A w : RootFinder rf -> RungeKutta tau A w -> CollocationEqs f t tau order A w false g x K Z u p -> (a < b <= N)%nat -> (forall i, (i < f_nx f)%nat -> at_m x i a = x0' i) ->
  integ rf nan (part t a b) x0' z0 (mcols u a b) = Ok out ->
  (forall n i, (n < b - a)%nat -> (i < f_nx f)%nat -> at_m (io_xf out) i n = at_m x i (a + n + 1)) /\
  (forall n j i, (n < b - a)%nat -> (j < order)%nat -> (i < f_nx f)%nat -> at_m (io_X out) i (n * order + j) = stage_x t order A x K (a + n) j i) /\
  length (io_tc out) = ((b - a) * order)%nat /\ (forall n j, (n < b - a)%nat -> (j < order)%nat -> node (io_tc out) (n * order + j) = stage_t t tau (a + n) j).
Proof.
  intros Hrf HR HC H E0 E. assert (H' : (a < b < length t)%nat) by (unfold ivals in H; lia). assert (H'' : (a <= b < length t)%nat) by lia. pose proof HP as (_ & Hd & HM & H1).
  assert (Lp : (2 <= length (part t a b))%nat) by (rewrite part_len by exact H''; lia).
  assert (Hu' : Shaped (mcols u a b) (f_nu f) (ivals (part t a b))) by (rewrite part_ivals by exact H''; destruct Hu; split; [assumption|reflexivity]).
  destruct (integrator_outputs cspts f (part t a b) order method tau g HP Lp HD HT Hsq rf nan x0' z0 (mcols u a b) p Hu' Hp out Hrf E) as (s & A1 & w1 & HV1 & Es & HR1 & HC1 & X0 & _ & Hxf & HX & _ & Htc & _).
  assert (HC' : CollocationEqs f (part t a b) tau order A w false g (mcols x a (S b)) (mcols K (a * order) (b * order)) (mcols Z (a * order) (b * order)) (mcols u a b) p).
  { apply (part_eqs f t tau order false g x K Z u p A w HD a b H'). destruct HC as (C1 & C2 & C3). split; [|split; [|discriminate]]; intros; [apply C1|apply C2]; (assumption || lia). }
  assert (E1 : forall i, (i < f_nx f)%nat -> Rabs (at_m (io_x out) i 0 - at_m (mcols x a (S b)) i 0) <= 0) by (intros i Hi; cbn; rewrite Nat.add_0_r, X0, E0 by exact Hi; rewrite Rminus_eq_0, Rabs_R0; lra).
  destruct (both_eqs f (part t a b) tau order false false g _ _ _ _ _ _ (mcols u a b) p (mcols u a b) p A1 w1 A w HM H1 Hd (part_asc t a b HA H'') HR1 HC1 HR HC' (fun _ _ _ _ => eq_refl) (fun _ _ => eq_refl) al L 0 Hal (part_short t al L a b Hss H'') Lip (Rle_refl 0) E1) as [B1 B2].
  rewrite part_ivals in B1, B2 by exact H''.
  assert (Z0 : forall v z B, Rabs (v - z) <= B -> B = 0 -> v = z). { clear. intros v z B HB ->. apply Rminus_diag_uniq. apply Rabs_eq_0. apply Rle_antisym; [exact HB|apply Rabs_pos]. }
  assert (G1 : forall n i, (n <= b - a)%nat -> (i < f_nx f)%nat -> at_m (io_x out) i n = at_m x i (a + n)) by (intros n i Hn Hi; apply (Z0 _ _ _ (B1 n i Hn Hi)); ring).
  assert (G2 : forall n j i, (n < b - a)%nat -> (j < order)%nat -> (i < f_nx f)%nat -> at_m (io_K out) i (n * order + j) = at_m K i ((a + n) * order + j)) by (intros n j i Hn Hj Hi; rewrite (Z0 _ _ _ (B2 n j i Hn Hj Hi)) by ring; cbn; f_equal; ring).
  destruct (scheme_all cspts f (part t a b) order method tau g false _ _ _ _ _ HP Lp HD HT HV1 A w HR) as (s' & _ & Es' & _ & _ & HX' & Lt & Ht & _). rewrite Es in Es'. injection Es' as <-. rewrite part_ivals in * by exact H''.
  split; [intros n i Hn Hi; rewrite Hxf, G1 by (assumption || lia); f_equal; ring|]. rewrite HX, Htc. split.
  - intros n j i Hn Hj Hi. rewrite HX' by assumption. unfold stage_x. rewrite G1, part_step by (assumption || lia). do 2 f_equal. apply Sum_ext. intros l Hl. now rewrite G2.
  - split; [exact Lt|]. intros n j Hn Hj. rewrite Ht by assumption. unfold stage_t. now rewrite part_node, part_step by (assumption || lia).
Qed.

Theorem integrator_split k rf nan z0 out rf1 nan1 z1 out1 rf2 nan2 z2 out2 : (0 < k < N)%nat -> RootFinder rf -> RootFinder rf1 -> RootFinder rf2 ->
  integ rf nan t x0 z0 u = Ok out -> integ rf1 nan1 (part t 0 k) x0 z1 (mcols u 0 k) = Ok out1 -> integ rf2 nan2 (part t k N) (fun i => at_m (io_xf out1) i (k - 1)) z2 (mcols u k N) = Ok out2 ->
  io_tc out = io_tc out1 ++ io_tc out2 /\
  (forall i n, (i < f_nx f)%nat -> (n < k)%nat -> at_m (io_xf out) i n = at_m (io_xf out1) i n) /\
  (forall i n, (i < f_nx f)%nat -> (n < N - k)%nat -> at_m (io_xf out) i (k + n) = at_m (io_xf out2) i n) /\
  (forall i c, (i < f_nx f)%nat -> (c < k * order)%nat -> at_m (io_X out) i c = at_m (io_X out1) i c) /\
  (forall i c, (i < f_nx f)%nat -> (c < (N - k) * order)%nat -> at_m (io_X out) i (k * order + c) = at_m (io_X out2) i c).
Proof.
  intros Hk Hrf Hrf1 Hrf2 E E1 E2. assert (HL : (2 <= length t)%nat) by (unfold ivals in Hk; lia).
  destruct (integrator_outputs cspts f t order method tau g HP HL HD HT Hsq rf nan x0 z0 u p Hu Hp out Hrf E) as (s & A & w & HV & Es & HR & HC & X0 & _ & Hxf & HX & _ & Htc & _).
  destruct (scheme_all cspts f t order method tau g false _ _ _ _ _ HP HL HD HT HV A w HR) as (s' & _ & Es' & _ & _ & HX' & Lt & Ht & _). rewrite Es in Es'. injection Es' as <-.
  destruct (part_integrator 0 k rf1 nan1 x0 z1 out1 _ _ _ A w Hrf1 HR HC ltac:(lia) X0 E1) as (F1 & FX1 & FL1 & Ft1). rewrite Nat.sub_0_r in *. cbn [Nat.add] in *.
  assert (X1 : forall i, (i < f_nx f)%nat -> at_m (io_x out) i k = at_m (io_xf out1) i (k - 1)) by (intros i Hi; rewrite F1 by (assumption || lia); now replace (k - 1 + 1)%nat with k by lia).
  destruct (part_integrator k N rf2 nan2 _ z2 out2 _ _ _ A w Hrf2 HR HC ltac:(lia) X1 E2) as (F2 & FX2 & FL2 & Ft2).
  rewrite HX, Htc. split; [|split; [|split; [|split]]].
  - apply (nth_ext _ _ 0 0); [rewrite app_length, Lt, FL1, FL2; nia|]. intros c Hc. rewrite Lt in Hc. destruct (Nat.lt_ge_cases c (k * order)).
    + rewrite app_nth1 by lia. destruct (col_split c k order) as (n & j & -> & Hn & Hj); [assumption|]. change (node (sc_tc s) (n * order + j) = node (io_tc out1) (n * order + j)). rewrite Ht, Ft1 by (assumption || lia). reflexivity.
    + rewrite app_nth2 by lia. rewrite FL1. destruct (col_split (c - k * order) (N - k) order) as (n & j & Ec & Hn & Hj); [nia|]. rewrite Ec. replace c with ((k + n) * order + j)%nat by nia. change (node (sc_tc s) ((k + n) * order + j) = node (io_tc out2) (n * order + j)). rewrite Ht, Ft2 by (assumption || lia). reflexivity.
  - intros i n Hi Hn. rewrite Hxf, F1 by assumption. reflexivity.
  - intros i n Hi Hn. rewrite Hxf, F2 by assumption. reflexivity.
  - intros i c Hi Hc. destruct (col_split c k order Hc) as (n & j & -> & Hn & Hj). rewrite HX', FX1 by (assumption || lia). reflexivity.
  - intros i c Hi Hc. destruct (col_split c _ order Hc) as (n & j & -> & Hn & Hj). replace (k * order + (n * order + j))%nat with ((k + n) * order + j)%nat by ring. rewrite HX', FX2 by (assumption || lia). reflexivity.
Qed.
End IntSplit.

(** ** Changes of variables *)
Section Move.
Context (cspts : nat -> string -> res (list R)) (f g : daefun R) (t : list R) (order : nat) (method : string) (tau : list R) (gf gg : option (R -> mat R)) (rep : bool) (y K Z u p : mat R).
Context (HP : Points cspts order method tau) (HL : (2 <= length t)%nat) (HDf : DaeOk f) (HDg : DaeOk g) (HTf : TdpOk f gf) (HTg : TdpOk g gg) (HV : VarsOk g (ivals t) order rep y K Z u p).
Context (S : nat -> nat -> R) (d : nat -> R) (kap c : R) (Hk : kap <> 0) (HC : Carries f g S d kap c).
Context (Htd : forall s i, (i < f_ntdp f)%nat -> tdp_at gf (c + kap * s) i = tdp_at gg s i).
Notation N := (ivals t).
Notation x' := (moved (f_nx f) (f_nx g) S d y).
Notation K' := (slopes (f_nx f) (f_nx g) S kap K).
Notation t' := (clock kap c t).

Lemma clock_ivals : ivals t' = N. Proof. unfold ivals, clock. now rewrite map_length. Qed.
Lemma clock_node l n : (n < length l)%nat -> node (clock kap c l) n = c + kap * node l n.
Proof. intros Hn. unfold node, clock. rewrite (nth_indep _ 0 (c + kap * 0)) by (now rewrite map_length). now rewrite (map_nth (fun s => c + kap * s)). Qed.
Lemma clock_step n : (n < N)%nat -> step t' n = kap * step t n.
Proof. intros Hn. unfold step. rewrite !clock_node by (unfold ivals in Hn; lia). ring. Qed.
Lemma move_sum (a : nat -> R) n i : Sum order (fun l => a l * at_m K' i (n * order + l)) = Sum (f_nx g) (fun k => S i k * Sum order (fun l => a l * at_m K k (n * order + l))) / kap.
Proof.
  cbn. rewrite (Sum_ext order _ (fun l => / kap * Sum (f_nx g) (fun k => a l * (S i k * at_m K k (n * order + l))))) by (intros l Hl; rewrite Sum_scal; unfold Rdiv; ring). rewrite Sum_scal.
  unfold Rdiv. rewrite Rmult_comm. f_equal. rewrite Sum_swap. apply Sum_ext. intros k Hk'. rewrite <- Sum_scal. apply Sum_ext. intros l Hl. ring.
Qed.
Lemma move_end (a : nat -> R) n i : (n < N)%nat -> at_m x' i n + step t' n * Sum order (fun l => a l * at_m K' i (n * order + l)) = Sum (f_nx g) (fun k => S i k * (at_m y k n + step t n * Sum order (fun l => a l * at_m K k (n * order + l)))) + d i.
Proof.
  intros Hn. rewrite move_sum, clock_step by exact Hn. cbn. rewrite (Sum_ext (f_nx g) (fun k => S i k * (at_m y k n + _)) (fun k => S i k * at_m y k n + step t n * (S i k * Sum order (fun l => a l * at_m K k (n * order + l))))) by (intros; ring).
  rewrite Sum_plus, Sum_scal. field. exact Hk.
Qed.
Lemma move_stage A n j : (n < N)%nat -> (j < order)%nat -> Moved f g S d kap c (stage t tau order A rep gg y K Z u p n j) (stage t' tau order A rep gf x' K' Z u p n j).
Proof.
  intros Hn Hj. assert (Et : stage_t t' tau n j = c + kap * stage_t t tau n j) by (unfold stage_t; rewrite clock_step, clock_node by (assumption || (unfold ivals in Hn; lia)); ring).
  repeat split; intros; cbn [stage a_xdot a_x a_z a_u a_p a_t a_tdp]; rewrite ?Et; try reflexivity; [|now apply Htd]. unfold stage_x. now apply move_end.
Qed.

Theorem move_scheme s e : scheme_ cspts g t order method gg rep y K Z u p = Ok s -> veccat_master (sc_eq s) = Ok e -> AllZero e ->
  exists s' e', scheme_ cspts f t' order method gf rep x' K' Z u p = Ok s' /\ veccat_master (sc_eq s') = Ok e' /\ AllZero e' /\
    sc_tc s' = clock kap c (sc_tc s) /\
    (forall i m, (i < f_nx f)%nat -> (m < N * order)%nat -> at_m (sc_X s') i m = Sum (f_nx g) (fun k => S i k * at_m (sc_X s) k m) + d i) /\
    (forall i n, (i < f_nq f)%nat -> (n <= N)%nat -> at_m (sc_q s') i n = at_m (sc_q s) i n) /\
    (forall i m, (i < f_nq f)%nat -> (m < N * order)%nat -> at_m (sc_Q s') i m = at_m (sc_Q s) i m).
Proof.
  intros Es Ee Hz. pose proof HC as (Ez & Eu & Ep & Etd & Eq & Hmv). destruct (tbl_ok cspts order method tau HP) as (_ & _ & _ & _ & _ & HR).
  assert (HV' : VarsOk f (ivals t') order rep x' K' Z u p). { rewrite clock_ivals. destruct HV as ([Y1 Y2] & [K1 K2] & [Z1 Z2] & [U1 U2] & [P1 P2]). repeat split; cbn; congruence. }
  destruct (scheme_all cspts g t order method tau gg rep y K Z u p HP HL HDg HTg HV _ _ HR) as (s1 & e1 & E1 & Ee1 & Hz1 & HX & Lt & Ht & Hq0 & Hqn & HQ). rewrite Es in E1. injection E1 as <-. rewrite Ee in Ee1. injection Ee1 as <-.
  destruct (scheme_all cspts f t' order method tau gf rep x' K' Z u p HP ltac:(unfold clock; now rewrite map_length) HDf HTf HV' _ _ HR) as (s' & e' & Es' & Ee' & Hz' & HX' & Lt' & Ht' & Hq0' & Hqn' & HQ'). rewrite clock_ivals in *.
  apply Hz1 in Hz as (C1 & C2 & C3). assert (G : forall n j, (n < N)%nat -> (j < order)%nat -> _) by (intros n j Hn Hj; exact (Hmv _ _ (move_stage _ n j Hn Hj) (fun r Hr => C1 n j r Hn Hj Hr))).
  assert (Q : forall i n, (i < f_nq f)%nat -> (n <= N)%nat -> at_m (sc_q s') i n = at_m (sc_q s) i n).
  { intros i n Hi. induction n as [|n IH]; intros Hn; [rewrite Hq0, Hq0' by (assumption || congruence); reflexivity|]. replace (Datatypes.S n) with (n + 1)%nat by lia. rewrite Hqn, Hqn', IH by (assumption || lia || congruence). f_equal. rewrite clock_step by lia.
    rewrite (Sum_ext order _ (fun l => / kap * (cb tau l * f_quad g (stage t tau order (cA tau) rep gg y K Z u p n l) i))) by (intros l Hl; rewrite (proj2 (G n l ltac:(lia) Hl) i Hi); unfold Rdiv; ring). rewrite Sum_scal. field. exact Hk. }
  exists s', e'. split; [exact Es'|]. split; [exact Ee'|]. split; [|split; [|split; [|split; [exact Q|]]]].
  - apply Hz'. split; [|split].
    + rewrite clock_ivals. intros n j r Hn Hj Hr. now apply G.
    + rewrite clock_ivals. intros n i Hn Hi. rewrite move_end by exact Hn. cbn. f_equal. apply Sum_ext. intros k Hk'. f_equal. now apply C2.
    + rewrite clock_ivals. intros Hr i k l Hi. apply C3; congruence.
  - apply (nth_ext _ _ 0 0); [unfold clock; now rewrite map_length, Lt, Lt'|]. intros m Hm. rewrite Lt' in Hm. change (node (sc_tc s') m = node (clock kap c (sc_tc s)) m). rewrite clock_node by lia. destruct (col_split m _ _ Hm) as (n & j & -> & Hn & Hj). rewrite Ht', Ht by assumption. unfold stage_t. rewrite clock_step, clock_node by (assumption || (unfold ivals in Hn; lia)). ring.
  - intros i m Hi Hm. destruct (col_split m _ _ Hm) as (n & j & -> & Hn & Hj). rewrite HX' by assumption. unfold stage_x. rewrite move_end by exact Hn. f_equal. apply Sum_ext. intros k Hk'. f_equal. now rewrite HX.
  - intros i m Hi Hm. destruct (col_split m _ _ Hm) as (n & j & -> & Hn & Hj). rewrite HQ', HQ by (assumption || congruence). rewrite Q by (assumption || lia). f_equal. rewrite clock_step by exact Hn.
    rewrite (Sum_ext order _ (fun l => / kap * (cA tau j l * f_quad g (stage t tau order (cA tau) rep gg y K Z u p n l) i))) by (intros l Hl; rewrite (proj2 (G n l Hn Hl) i Hi); unfold Rdiv; ring). rewrite Sum_scal. field. exact Hk.
Qed.
End Move.
Lemma clock_asc kap c t : 0 < kap -> Asc t -> Asc (clock kap c t).
Proof. intros Hk HA i j H. unfold clock in H. rewrite map_length in H. rewrite !clock_node by lia. specialize (HA i j H). nra. Qed.

(** The integrator in the new variables *)
Section IntMove.
Context (cspts : nat -> string -> res (list R)) (f g : daefun R) (t : list R) (order : nat) (method : string) (tau : list R) (gf gg : option (R -> mat R)) (u p : mat R).
Context (HP : Points cspts order method tau) (HL : (2 <= length t)%nat) (HDf : DaeOk f) (HDg : DaeOk g) (HTf : TdpOk f gf) (HTg : TdpOk g gg).
Context (Hqf : f_ndae f = (f_nx f + f_nz f)%nat) (Hqg : f_ndae g = (f_nx g + f_nz g)%nat) (HA : Asc t).
Context (S : nat -> nat -> R) (d : nat -> R) (kap c : R) (Hk : 0 < kap) (HC : Carries f g S d kap c).
Context (Htd : forall s i, (i < f_ntdp f)%nat -> tdp_at gf (c + kap * s) i = tdp_at gg s i).
Context (al L : R) (Hal : CoefBound tau al) (Hss : ShortSteps (clock kap c t) al L) (Lip : LipDae f L).
Context (y0 : nat -> R) (Hu : Shaped u (f_nu g) (ivals t)) (Hp : Shaped p (f_np g) 1).

Theorem integrator_move rf nan z0 out rf' nan' z0' out' : RootFinder rf -> RootFinder rf' -> integrator_ rf nan cspts g t order method gg y0 z0 u p = Ok out ->
  integrator_ rf' nan' cspts f (clock kap c t) order method gf (fun i => Sum (f_nx g) (fun k => S i k * y0 k) + d i) z0' u p = Ok out' ->
  io_tc out' = clock kap c (io_tc out) /\
  (forall i n, (i < f_nx f)%nat -> (n < ivals t)%nat -> at_m (io_xf out') i n = Sum (f_nx g) (fun k => S i k * at_m (io_xf out) k n) + d i) /\
  (forall i m, (i < f_nx f)%nat -> (m < ivals t * order)%nat -> at_m (io_X out') i m = Sum (f_nx g) (fun k => S i k * at_m (io_X out) k m) + d i).
Proof.
  intros Hrf Hrf' E E'. pose proof HC as (Ez & Eu & Ep & _). assert (HL' : (2 <= length (clock kap c t))%nat) by (unfold clock; now rewrite map_length).
  destruct (integrator_outputs cspts g t order method tau gg HP HL HDg HTg Hqg rf nan y0 z0 u p Hu Hp out Hrf E) as (s & A & w & HV & Es & HR & HE & X0 & _ & Hxf & HX & _ & Htc & _).
  assert (Hu' : Shaped u (f_nu f) (ivals (clock kap c t))) by (rewrite clock_ivals, Eu; exact Hu). assert (Hp' : Shaped p (f_np f) 1) by (rewrite Ep; exact Hp).
  destruct (integrator_outputs cspts f (clock kap c t) order method tau gf HP HL' HDf HTf Hqf rf' nan' _ z0' u p Hu' Hp' out' Hrf' E') as (s' & A' & w' & HV' & Es' & HR' & HE' & X0' & _ & Hxf' & HX' & _ & Htc' & _).
  destruct (scheme_all cspts g t order method tau gg false _ _ _ _ _ HP HL HDg HTg HV A w HR) as (s1 & e & E1 & Ee & Hz & _). rewrite Es in E1. injection E1 as <-. apply Hz in HE.
  destruct (scheme_all cspts f (clock kap c t) order method tau gf false _ _ _ _ _ HP HL' HDf HTf HV' A' w' HR') as (s1 & e' & E1 & Ee' & Hz' & _ & Lt' & _). rewrite Es' in E1. injection E1 as <-. apply Hz' in HE'.
  destruct (move_scheme cspts f g t order method tau gf gg false _ _ _ _ _ HP HL HDf HDg HTf HTg HV S d kap c ltac:(lra) HC Htd s e Es Ee HE) as (s2 & e2 & E2 & Ee2 & HE2 & T2 & X2 & _).
  assert (HV2 : VarsOk f (ivals (clock kap c t)) order false (moved (f_nx f) (f_nx g) S d (io_x out)) (slopes (f_nx f) (f_nx g) S kap (io_K out)) (io_Z out) u p).
  { rewrite clock_ivals. destruct HV as ([Y1 Y2] & [K1 K2] & [Z1 Z2] & [U1 U2] & [P1 P2]). repeat split; cbn; congruence. }
  destruct (solution_unique cspts f (clock kap c t) order method tau gf false HP HL' HDf HTf (clock_asc kap c t Hk HA) al L Hal Hss Lip _ _ _ u p _ _ _ HV' HV2 s' s2 e' e2 Es' Ee' HE' E2 Ee2 HE2) as (U1 & _ & U3).
  { intros i Hi. rewrite X0' by exact Hi. cbn. f_equal. apply Sum_ext. intros k Hk'. now rewrite X0. }
  rewrite clock_ivals in U1, U3, Lt'. rewrite Htc, Htc', HX, HX'. split; [|split].
  - destruct (scheme_all cspts f (clock kap c t) order method tau gf false _ _ _ _ _ HP HL' HDf HTf HV' A' w' HR') as (s3 & _ & E3 & _ & _ & _ & L3 & T3 & _). rewrite Es' in E3. injection E3 as <-.
    destruct (scheme_all cspts f (clock kap c t) order method tau gf false _ _ _ _ _ HP HL' HDf HTf HV2 A' w' HR') as (s3 & _ & E3 & _ & _ & _ & L4 & T4 & _). rewrite E2 in E3. injection E3 as <-.
    rewrite <- T2. apply (nth_ext _ _ 0 0); [congruence|]. intros m Hm. rewrite L3 in Hm. destruct (col_split m _ _ Hm) as (n & j & -> & Hn & Hj). change (node (sc_tc s') (n * order + j) = node (sc_tc s2) (n * order + j)). now rewrite T3, T4.
  - intros i n Hi Hn. rewrite Hxf', U1 by (assumption || lia). cbn. f_equal. apply Sum_ext. intros k Hk'. now rewrite Hxf.
  - intros i m Hi Hm. destruct (col_split m _ _ Hm) as (n & j & -> & Hn & Hj). rewrite U3 by assumption. now apply X2.
Qed.
End IntMove.
