(** Time reversal (C106). *)
From Coq Require Import Reals Lra Lia List.
From Coquelicot Require Import Coquelicot.
From Verif Require Import PyBase IndexModel DMModel StructModel StructsModel IneqModel DaeModel NumModel NumInst PolynomialModel PiecewiseModel PdqModel SchemeModel
  PolySpec PdqSpec SchemeSpec PolyMath PolynomialBase PdqThms SchemeThms SchemeThms2 SchemeThms3 SchemeThms4 OrderSpec OrderMath OrderThms ConvSpec ConvThms GridSpec GridThms RevSpec.
Open Scope R_scope.

(** ** Coefficients *)
Lemma flip_int (F : R -> R) a b (v : R) : is_RInt (fun x => F (1 - x)) a b v -> is_RInt F (1 - b) (1 - a) v.
Proof.
  intros H. apply (int_ext (fun y => - (-1 * F (1 - (-1 * y + 1))))); [intros y; replace (1 - (-1 * y + 1)) with y by ring; ring|].
  rewrite <- (Ropp_involutive v). apply (is_RInt_opp (V := R_NormedModule) (fun y => -1 * F (1 - (-1 * y + 1)))). apply (is_RInt_swap (V := R_NormedModule)).
  apply (is_RInt_comp_lin (V := R_NormedModule) (fun x => F (1 - x)) (-1) 1 (1 - a) (1 - b) v).
  replace (-1 * (1 - a) + 1) with a by ring. replace (-1 * (1 - b) + 1) with b by ring. exact H.
Qed.
Lemma flip_poly n F : PolyLt n F -> PolyLt n (fun x => F (1 - x)).
Proof. intros P. apply (PolyLt_ext n (fun x => F (-1 * x + 1))); [intros x; f_equal; ring|]. now apply PolyLt_comp. Qed.

Lemma rk_symmetric tau A b : NoDup tau -> Symmetric tau -> RungeKutta tau A b ->
  forall l, (l < length tau)%nat -> b l = b (length tau - 1 - l)%nat /\ forall j, (j < length tau)%nat -> A j l + A (length tau - 1 - j)%nat (length tau - 1 - l)%nat = b l.
Proof.
  intros Hd Hs HR. set (M := length tau) in *.
  assert (HR' : RungeKutta tau (fun j l => b l - A (M - 1 - j)%nat (M - 1 - l)%nat) (fun l => b (M - 1 - l)%nat)).
  { intros F PF. destruct (HR _ (flip_poly _ _ PF)) as [H1 H2]. destruct (HR _ PF) as [_ H3]. fold M in H1, H2, H3 |- *. pose proof (flip_int F _ _ _ H2) as I2. replace (1 - 1) with 0 in I2 by ring. replace (1 - 0) with 1 in I2 by ring.
    assert (E : forall w, Sum M (fun j => w j * F (1 - node tau j)) = Sum M (fun j => w (M - 1 - j)%nat * F (node tau j))).
    { intros w. rewrite (Sum_rev M (fun j => w j * F (1 - node tau j))). apply Sum_ext. intros k Hk. do 2 f_equal. pose proof (Hs k Hk). fold M in H. lra. }
    rewrite E in I2. split; [|exact I2]. intros j Hj. pose proof (flip_int F _ _ _ (H1 (M - 1 - j)%nat ltac:(lia))) as I1. rewrite E in I1. replace (1 - 0) with 1 in I1 by ring.
    replace (1 - node tau (M - 1 - j)) with (node tau j) in I1 by (pose proof (Hs j Hj) as E1; fold M in E1; lra).
    replace (Sum M (fun l => (b l - A (M - 1 - j)%nat (M - 1 - l)%nat) * F (node tau l))) with (plus (Sum M (fun l => b l * F (node tau l))) (opp (Sum M (fun l => A (M - 1 - j)%nat (M - 1 - l)%nat * F (node tau l))))).
    2:{ change (Sum M (fun l => b l * F (node tau l)) + - Sum M (fun l => A (M - 1 - j)%nat (M - 1 - l)%nat * F (node tau l)) = Sum M (fun l => (b l - A (M - 1 - j)%nat (M - 1 - l)%nat) * F (node tau l))).
        rewrite <- Sum_opp, <- Sum_plus. apply Sum_ext. intros l Hl. ring. }
    apply (is_RInt_Chasles (V := R_NormedModule) F 0 1 (node tau j)); [exact H3|]. apply (is_RInt_swap (V := R_NormedModule)). exact I1. }
  intros l Hl. destruct (rk_unique tau _ _ _ _ Hd HR HR' l Hl) as [E1 E2]. split; [exact E1|]. intros j Hj. rewrite (E2 j Hj). cbv beta. lra.
Qed.

(** ** Grids *)
Lemma rev_ivals t : ivals (rev t) = ivals t. Proof. unfold ivals. now rewrite rev_length. Qed.
Lemma rev_node (t : list R) n : (n < length t)%nat -> node (rev t) n = node t (length t - 1 - n).
Proof. intros H. unfold node. rewrite rev_nth by exact H. f_equal. lia. Qed.

Section Rev.
Context (cspts : nat -> string -> res (list R)) (f f' : daefun R) (t : list R) (order : nat) (method : string) (tau : list R) (gf gf' : option (R -> mat R)) (rep : bool) (x K Z u p x' K' Z' u' p' : mat R).
Context (HP : Points cspts order method tau) (HS : Symmetric tau) (HL : (2 <= length t)%nat) (HD : DaeOk f) (HD' : DaeOk f') (HT : TdpOk f gf) (HT' : TdpOk f' gf').
Context (kap c : R) (Hk : kap <> 0) (HC : Retimed f f' kap c) (Htd : forall s i, (i < f_ntdp f)%nat -> tdp_at gf' (c + kap * s) i = tdp_at gf s i).
Notation N := (ivals t).
Notation t' := (clock kap c (rev t)).
Context (Bx : Back (f_nx f) (N + 1) 1 x x') (BK : Back (f_nx f) (N * order) kap K K') (BZ : Back (f_nz f) (N * order) 1 Z Z') (Bu : Back (f_nu f) N 1 u u') (Bp : Back (f_np f) (if rep then N * order else 1)%nat 1 p p').

Lemma back_ivals : ivals t' = N. Proof. rewrite clock_ivals. apply rev_ivals. Qed.
Lemma back_node n : (n <= N)%nat -> node t' n = c + kap * node t (N - n).
Proof. intros Hn. unfold ivals in *. rewrite clock_node by (rewrite rev_length; lia). rewrite rev_node by lia. replace (length t - 1 - n)%nat with (length t - 1 - n)%nat by lia; reflexivity. Qed.
Lemma back_step n : (n < N)%nat -> step t' n = - kap * step t (N - 1 - n).
Proof. intros Hn. unfold step. rewrite !back_node by lia. replace (N - 1 - n + 1)%nat with (N - n)%nat by lia. replace (N - (n + 1))%nat with (N - 1 - n)%nat by lia. ring. Qed.
Lemma back_col n j : (n < N)%nat -> (j < order)%nat -> (N * order - 1 - (n * order + j) = (N - 1 - n) * order + (order - 1 - j))%nat.
Proof. intros Hn Hj. nia. Qed.
Lemma back_in n j : (n < N)%nat -> (j < order)%nat -> (n * order + j < N * order)%nat. Proof. intros. nia. Qed.

Lemma back_sum A b n i : RungeKutta tau A b -> (n < N)%nat -> (i < f_nx f)%nat ->
  (forall j, (j < order)%nat -> step t' n * Sum order (fun l => A j l * at_m K' i (n * order + l)) = step t (N - 1 - n) * (Sum order (fun l => A (order - 1 - j)%nat l * at_m K i ((N - 1 - n) * order + l)) - Sum order (fun l => b l * at_m K i ((N - 1 - n) * order + l)))) /\
  step t' n * Sum order (fun l => b l * at_m K' i (n * order + l)) = - (step t (N - 1 - n) * Sum order (fun l => b l * at_m K i ((N - 1 - n) * order + l))).
Proof.
  intros HR Hn Hi. pose proof HP as (_ & Hd & HM & _). pose proof (rk_symmetric tau A b Hd HS HR) as Sy. rewrite HM in Sy.
  assert (E : forall w, step t' n * Sum order (fun l => w l * at_m K' i (n * order + l)) = - (step t (N - 1 - n) * Sum order (fun l => w (order - 1 - l)%nat * at_m K i ((N - 1 - n) * order + l)))).
  { intros w. rewrite back_step by exact Hn. rewrite (Sum_rev order (fun l => w (order - 1 - l)%nat * _)). rewrite (Sum_ext order (fun l => w l * at_m K' i (n * order + l)) (fun l => / kap * (w (order - 1 - (order - 1 - l))%nat * at_m K i ((N - 1 - n) * order + (order - 1 - l))))).
    - rewrite Sum_scal. field. exact Hk.
    - intros l Hl. rewrite BK by (assumption || now apply back_in). rewrite back_col by assumption. replace (order - 1 - (order - 1 - l))%nat with l by lia. field. exact Hk. }
  split; [intros j Hj|]; rewrite E.
  - rewrite <- Sum_minus, <- Ropp_mult_distr_r_reverse, <- Sum_opp. f_equal. apply Sum_ext. intros l Hl. pose proof (proj2 (Sy (order - 1 - l)%nat ltac:(lia)) j Hj) as E1. replace (order - 1 - (order - 1 - l))%nat with l in E1 by lia. rewrite (proj1 (Sy l Hl)). rewrite <- E1. ring.
  - do 2 f_equal. apply Sum_ext. intros l Hl. now rewrite <- (proj1 (Sy l Hl)).
Qed.
Lemma back_t n j : (n < N)%nat -> (j < order)%nat -> stage_t t' tau n j = c + kap * stage_t t tau (N - 1 - n) (order - 1 - j).
Proof.
  intros Hn Hj. pose proof HP as (_ & _ & HM & _). unfold stage_t. rewrite back_step, back_node by lia. pose proof (HS j ltac:(lia)) as E. rewrite HM in E.
  replace (node t (N - n)) with (node t (N - 1 - n) + step t (N - 1 - n)) by (unfold step; replace (N - 1 - n + 1)%nat with (N - n)%nat by lia; ring). replace (node tau j) with (1 - node tau (order - 1 - j)) by lra. ring.
Qed.

Lemma back_stage A b n j : RungeKutta tau A b -> CollocationEqs f t tau order A b rep gf x K Z u p -> (n < N)%nat -> (j < order)%nat ->
  Clocked f kap c (stage t tau order A rep gf x K Z u p (N - 1 - n) (order - 1 - j)) (stage t' tau order A rep gf' x' K' Z' u' p' n j).
Proof.
  intros HR (_ & C2 & _) Hn Hj. pose proof (back_in n j Hn Hj) as Hin. repeat split; intros; cbn [stage a_xdot a_x a_z a_u a_p a_t a_tdp].
  - rewrite BK by assumption. now rewrite back_col.
  - unfold stage_x. rewrite (proj1 (back_sum A b n i HR Hn H) j Hj). rewrite Bx by (assumption || lia). pose proof (C2 (N - 1 - n)%nat i ltac:(lia) H) as E. replace (N - 1 - n + 1)%nat with (N + 1 - 1 - n)%nat in E by lia. rewrite <- E. field.
  - rewrite BZ by assumption. rewrite back_col by assumption. field.
  - rewrite Bu by assumption. field.
  - destruct rep; [rewrite Bp by assumption; rewrite back_col by assumption; field|]. rewrite Bp by (assumption || lia). cbn. field.
  - now apply back_t.
  - rewrite back_t by assumption. now apply Htd.
Qed.

Theorem reverse_scheme s e : VarsOk f N order rep x K Z u p -> VarsOk f' N order rep x' K' Z' u' p' ->
  scheme_ cspts f t order method gf rep x K Z u p = Ok s -> veccat_master (sc_eq s) = Ok e -> AllZero e ->
  exists s' e', scheme_ cspts f' t' order method gf' rep x' K' Z' u' p' = Ok s' /\ veccat_master (sc_eq s') = Ok e' /\ AllZero e' /\
    sc_tc s' = clock kap c (rev (sc_tc s)) /\ Back (f_nx f) (N * order) 1 (sc_X s) (sc_X s') /\
    (forall i n, (i < f_nq f)%nat -> (n <= N)%nat -> at_m (sc_q s') i n = at_m (sc_q s) i (N - n) - at_m (sc_q s) i N) /\
    (forall i m, (i < f_nq f)%nat -> (m < N * order)%nat -> at_m (sc_Q s') i m = at_m (sc_Q s) i (N * order - 1 - m) - at_m (sc_q s) i N).
Proof.
  intros HV HV' Es Ee Hz. pose proof HP as (_ & Hd & HM & H1). destruct (tbl_ok cspts order method tau HP) as (_ & _ & _ & _ & _ & HR). pose proof HC as ((Ex & Ez & Eu & Ep & Etd & Eq) & Hmv).
  assert (HV2 : VarsOk f' (ivals t') order rep x' K' Z' u' p') by (rewrite back_ivals; exact HV').
  destruct (scheme_all cspts f t order method tau gf rep x K Z u p HP HL HD HT HV _ _ HR) as (s1 & e1 & E1 & Ee1 & Hz1 & HX & Lt & Ht & Hq0 & Hqn & HQ). rewrite Es in E1. injection E1 as <-. rewrite Ee in Ee1. injection Ee1 as <-.
  destruct (scheme_all cspts f' t' order method tau gf' rep x' K' Z' u' p' HP ltac:(unfold clock; now rewrite map_length, rev_length) HD' HT' HV2 _ _ HR) as (s' & e' & Es' & Ee' & Hz' & HX' & Lt' & Ht' & Hq0' & Hqn' & HQ'). rewrite back_ivals in *.
  apply Hz1 in Hz. pose proof Hz as (C1 & C2 & C3). set (A := cA tau) in *. set (b := cb tau) in *. pose proof (rk_symmetric tau A b Hd HS HR) as Sy. rewrite HM in Sy.
  assert (G : forall n j, (n < N)%nat -> (j < order)%nat -> _) by (intros n j Hn Hj; exact (Hmv _ _ (back_stage A b n j HR Hz Hn Hj) (fun r Hr => C1 (N - 1 - n)%nat (order - 1 - j)%nat r ltac:(lia) ltac:(lia) Hr))).
  assert (W : forall w i n, (i < f_nq f)%nat -> (n < N)%nat -> step t' n * Sum order (fun l => w l * f_quad f' (stage t' tau order A rep gf' x' K' Z' u' p' n l) i) =
    - (step t (N - 1 - n) * Sum order (fun l => w (order - 1 - l)%nat * f_quad f (stage t tau order A rep gf x K Z u p (N - 1 - n) l) i))).
  { intros w i n Hi Hn. rewrite back_step by exact Hn. rewrite (Sum_rev order (fun l => w (order - 1 - l)%nat * _)).
    rewrite (Sum_ext order (fun l => w l * _) (fun l => / kap * (w (order - 1 - (order - 1 - l))%nat * f_quad f (stage t tau order A rep gf x K Z u p (N - 1 - n) (order - 1 - l)) i))).
    - rewrite Sum_scal. field. exact Hk.
    - intros l Hl. rewrite (proj2 (G n l Hn Hl) i Hi). replace (order - 1 - (order - 1 - l))%nat with l by lia. field. exact Hk. }
  assert (Q : forall i n, (i < f_nq f)%nat -> (n <= N)%nat -> at_m (sc_q s') i n = at_m (sc_q s) i (N - n) - at_m (sc_q s) i N).
  { intros i n Hi. induction n as [|n IH]; intros Hn; [rewrite Hq0', Nat.sub_0_r by (now rewrite Eq); ring|]. replace (S n) with (n + 1)%nat by lia. rewrite Hqn', IH, W by (lia || congruence).
    pose proof (Hqn i (N - 1 - n)%nat Hi ltac:(lia)) as E. replace (N - 1 - n + 1)%nat with (N - n)%nat in E by lia. rewrite E. replace (N - (n + 1))%nat with (N - 1 - n)%nat by lia.
    rewrite (Sum_ext order (fun l => b (order - 1 - l)%nat * _) (fun l => b l * f_quad f (stage t tau order A rep gf x K Z u p (N - 1 - n) l) i)) by (intros l Hl; now rewrite <- (proj1 (Sy l Hl))). ring. }
  exists s', e'. split; [exact Es'|]. split; [exact Ee'|]. split; [|split; [|split; [|split; [exact Q|]]]].
  - apply Hz'. split; [|split]; rewrite back_ivals.
    + intros n j r Hn Hj Hr. now apply G.
    + rewrite Ex. intros n i Hn Hi. rewrite (proj2 (back_sum A b n i HR Hn Hi)). rewrite !Bx by (assumption || lia). pose proof (C2 (N - 1 - n)%nat i ltac:(lia) Hi) as E. replace (N - 1 - n + 1)%nat with (N + 1 - 1 - n)%nat in E by lia. rewrite <- E. replace (N + 1 - 1 - (n + 1))%nat with (N - 1 - n)%nat by lia. field.
    + rewrite Ep. intros Hr i k l Hi Hk' Hl. revert Bp. rewrite Hr. intros B. rewrite !B by assumption. f_equal. apply C3; assumption || lia.
  - apply (nth_ext _ _ 0 0); [unfold clock; rewrite map_length, rev_length; congruence|]. intros m Hm. rewrite Lt' in Hm. change (node (sc_tc s') m = node (clock kap c (rev (sc_tc s))) m). rewrite clock_node by (rewrite rev_length; lia). rewrite rev_node by lia. rewrite Lt.
    destruct (col_split m _ _ Hm) as (n & j & -> & Hn & Hj). rewrite back_col by assumption. rewrite Ht', Ht by (assumption || lia). now apply back_t.
  - intros i m Hi Hm. destruct (col_split m _ _ Hm) as (n & j & -> & Hn & Hj). rewrite back_col by assumption. rewrite HX', HX by (congruence || lia). pose proof (back_stage A b n j HR Hz Hn Hj) as (_ & Hx & _). specialize (Hx i Hi). cbn [stage a_x] in Hx. rewrite Hx. field.
  - intros i m Hi Hm. destruct (col_split m _ _ Hm) as (n & j & -> & Hn & Hj). rewrite back_col by assumption. rewrite HQ', HQ, Q, W by (congruence || lia).
    pose proof (Hqn i (N - 1 - n)%nat Hi ltac:(lia)) as E. replace (N - 1 - n + 1)%nat with (N - n)%nat in E by lia. rewrite E.
    rewrite (Sum_ext order (fun l => b l * _) (fun l => A j (order - 1 - l)%nat * f_quad f (stage t tau order A rep gf x K Z u p (N - 1 - n) l) i + A (order - 1 - j)%nat l * f_quad f (stage t tau order A rep gf x K Z u p (N - 1 - n) l) i)).
    + rewrite Sum_plus. ring.
    + intros l Hl. pose proof (proj2 (Sy (order - 1 - l)%nat ltac:(lia)) j Hj) as E1. replace (order - 1 - (order - 1 - l))%nat with l in E1 by lia. rewrite (proj1 (Sy l Hl)), <- E1. ring.
Qed.
End Rev.
