(** Points that are determined by their order, and the integrator run backwards (C106). *)
From Coq Require Import Reals Lra Lia List.
From Coquelicot Require Import Coquelicot.
From Verif Require Import PyBase IndexModel DMModel StructModel StructsModel IneqModel DaeModel NumModel NumInst PolynomialModel PiecewiseModel PdqModel SchemeModel
  PolySpec PdqSpec SchemeSpec PolyMath PolynomialBase PolynomialThms2 PiecewiseThms PdqThms SchemeThms SchemeThms2 SchemeThms3 SchemeThms4 OrderSpec OrderMath OrderThms ConvSpec ConvThms GridSpec GridThms RevSpec RevThms.
Import ListNotations.
Open Scope R_scope.

(** ** Ascending lists *)
Lemma Asc_head a l v : Asc (a :: l) -> In v l -> a < v.
Proof. intros H Hv. destruct (In_nth l v 0 Hv) as (k & Hk & <-). exact (H 0%nat (S k) ltac:(simpl; lia)). Qed.
Lemma Asc_same l m : Asc l -> Asc m -> (forall v, In v l <-> In v m) -> l = m.
Proof.
  revert m. induction l as [|a l IH]; intros [|b m] Hl Hm H; [reflexivity|destruct (proj2 (H b) (or_introl eq_refl))|destruct (proj1 (H a) (or_introl eq_refl))|].
  assert (a = b). { destruct (proj1 (H a) (or_introl eq_refl)) as [E|I1]; [auto|]. destruct (proj2 (H b) (or_introl eq_refl)) as [E|I2]; [auto|]. pose proof (Asc_head _ _ _ Hl I2). pose proof (Asc_head _ _ _ Hm I1). lra. }
  subst b. f_equal. apply IH; [exact (Asc_tail _ _ Hl)|exact (Asc_tail _ _ Hm)|]. intros v. split; intros Hv.
  - destruct (proj1 (H v) (or_intror Hv)) as [E|I]; [|exact I]. pose proof (Asc_head _ _ _ Hl Hv). lra.
  - destruct (proj2 (H v) (or_intror Hv)) as [E|I]; [|exact I]. pose proof (Asc_head _ _ _ Hm Hv). lra.
Qed.

(** ** Orthogonality determines the points *)
Lemma nodal_diff l m : length l = length m -> PolyLt (length l) (fun x => nodal l x - nodal m x).
Proof.
  intros E. destruct (nodal_monic l) as (f & Pf & Hf), (nodal_monic m) as (g & Pg & Hg). rewrite <- E in Pg.
  apply (PolyLt_ext _ (fun x => f x - g x)); [intros x; rewrite Hf, Hg, E; ring|]. now apply PolyLt_minus.
Qed.
Lemma nodal_zeros l m : (forall x, nodal l x = nodal m x) -> forall v, In v l <-> In v m.
Proof. intros H v. rewrite <- !nodal_zero, H. reflexivity. Qed.
Lemma gauss_unique l m : Asc l -> Asc m -> length l = length m -> Ortho l (length l) -> Ortho m (length m) -> l = m.
Proof.
  intros Hl Hm E Ol Om. apply Asc_same; try assumption. apply nodal_zeros. pose proof (nodal_diff l m E) as P. set (d := fun x => nodal l x - nodal m x) in *.
  assert (I0 : is_RInt (fun x => d x * d x) 0 1 0).
  { apply (int_ext (fun x => d x * nodal l x - d x * nodal m x)); [intros x; unfold d; ring|]. evar_last; [apply (is_RInt_minus (V := R_NormedModule) (fun x => d x * nodal l x) (fun x => d x * nodal m x)); [apply Ol, P|apply Om; rewrite <- E; exact P]|]. unfold minus, plus, opp. simpl. ring. }
  intros x. assert (D : d x * d x = 0).
  { apply (int_zero (length l + length l) (fun x => d x * d x)); [|intros y _; nra|exact I0]. apply (PolyLt_mul (length l) (length l)); [apply (PolyLt_mon (length l)); [lia|exact P]|exact P]. }
  apply Rmult_integral in D. unfold d in D. destruct D; lra.
Qed.
(** Radau's points: 1 is one of them, and the others are orthogonal with the weight [1 - x]. *)
Lemma radau_unique l m : Asc l -> Asc m -> length l = length m -> In 1 l -> In 1 m -> Ortho l (length l - 1) -> Ortho m (length m - 1) -> l = m.
Proof.
  intros Hl Hm E I1 I2 Ol Om. apply Asc_same; try assumption. apply nodal_zeros. pose proof (nodal_diff l m E) as P. set (d := fun x => nodal l x - nodal m x) in *.
  assert (Hn : (1 <= length l)%nat) by (destruct l; [destruct I1|simpl; lia]). assert (d1 : d 1 = 0) by (unfold d; rewrite (proj2 (nodal_zero l 1) I1), (proj2 (nodal_zero m 1) I2); ring).
  destruct (factor_all [1] (length l - 1) d) as (q & Pq & Hq); [apply (PolyLt_mon (length l)); [simpl; lia|exact P]|constructor; [intros []|constructor]|intros a [<-|[]]; exact d1|].
  assert (Hq' : forall x, d x = q x * (x - 1)) by (intros x; rewrite Hq; simpl; ring).
  assert (I0 : is_RInt (fun x => q x * d x) 0 1 0).
  { apply (int_ext (fun x => q x * nodal l x - q x * nodal m x)); [intros x; unfold d; ring|]. evar_last; [apply (is_RInt_minus (V := R_NormedModule) (fun x => q x * nodal l x) (fun x => q x * nodal m x)); [apply Ol, Pq|apply Om; rewrite <- E; exact Pq]|]. unfold minus, plus, opp. simpl. ring. }
  assert (I3 : is_RInt (fun x => q x * q x * (1 - x)) 0 1 0).
  { apply (int_ext (fun x => - (q x * d x))); [intros x; rewrite Hq'; ring|]. evar_last; [apply (is_RInt_opp (V := R_NormedModule) (fun x => q x * d x)), I0|]. unfold opp. simpl. ring. }
  assert (Z : forall x, q x * q x * (1 - x) = 0).
  { apply (int_zero (length l + length l) (fun x => q x * q x * (1 - x))); [|intros y Hy; pose proof (Rle_0_sqr (q y)) as S0; unfold Rsqr in S0; nra|exact I3].
    apply (PolyLt_ext _ (fun x => q x * (-1 * d x))); [intros x; rewrite Hq'; ring|]. apply PolyLt_mul; [apply (PolyLt_mon (length l - 1)); [lia|exact Pq]|]. now apply PolyLt_scal. }
  intros x. specialize (Z x). assert (d x = 0); [|unfold d in *; lra]. rewrite Hq'. apply Rmult_integral in Z as [Z|Z]; [apply Rmult_integral in Z as [Z|Z]; rewrite Z; ring|replace (x - 1) with 0 by lra; ring].
Qed.

(** ** Symmetry *)
Definition mirror (l : list R) : list R := rev (map (fun v => 1 - v) l).
Lemma mirror_len l : length (mirror l) = length l. Proof. unfold mirror. now rewrite rev_length, map_length. Qed.
Lemma mirror_node l n : (n < length l)%nat -> node (mirror l) n = 1 - node l (length l - 1 - n).
Proof.
  intros H. unfold mirror. rewrite rev_node by (now rewrite map_length). rewrite map_length. unfold node. rewrite (nth_indep _ 0 (1 - 0)) by (rewrite map_length; lia). now rewrite (map_nth (fun v => 1 - v)).
Qed.
Lemma mirror_asc l : Asc l -> Asc (mirror l).
Proof. intros H i j Hij. rewrite mirror_len in Hij. rewrite !mirror_node by lia. pose proof (H (length l - 1 - j)%nat (length l - 1 - i)%nat ltac:(lia)). lra. Qed.
Lemma nodal_rev l x : nodal (rev l) x = nodal l x.
Proof. induction l as [|a l IH]; simpl; [reflexivity|]. rewrite nodal_app, IH. simpl. ring. Qed.
Lemma nodal_mirror l x : nodal (mirror l) x = (-1) ^ length l * nodal l (1 - x).
Proof. unfold mirror. rewrite nodal_rev. induction l as [|a l IH]; simpl; [ring|]. rewrite IH. ring. Qed.
Lemma mirror_ortho l k : Ortho l k -> Ortho (mirror l) k.
Proof.
  intros H q Pq. pose proof (H _ (flip_poly _ _ Pq)) as I0. apply (int_ext _ (fun x => (fun y => q y * nodal l (1 - y)) (1 - x))) in I0; [|intros x; cbv beta; do 2 f_equal; ring].
  apply (flip_int (fun y => q y * nodal l (1 - y))) in I0. replace (1 - 1) with 0 in I0 by ring. replace (1 - 0) with 1 in I0 by ring.
  apply (int_ext (fun x => (-1) ^ length l * (q x * nodal l (1 - x)))); [intros x; rewrite nodal_mirror; ring|]. evar_last; [apply (is_RInt_scal (V := R_NormedModule) (fun x => q x * nodal l (1 - x))), I0|]. unfold scal. simpl. unfold mult. simpl. ring.
Qed.
(** Ascending points of order [2 n], as Legendre's, are symmetric. *)
Theorem legendre_symmetric tau : Asc tau -> Ortho tau (length tau) -> Symmetric tau.
Proof.
  intros HA HO. assert (E : tau = mirror tau) by (apply gauss_unique; rewrite ?mirror_len; auto using mirror_asc, mirror_ortho).
  intros j Hj. rewrite E at 1. rewrite mirror_node by exact Hj. ring.
Qed.
(** Points with 1 but not 0, as Radau's, are not. *)
Theorem radau_not_symmetric tau : Asc tau -> (forall v, In v tau -> 0 < v <= 1) -> In 1 tau -> ~ Symmetric tau.
Proof.
  intros HA HU H1 HS. destruct (In_nth tau 1 0 H1) as (j & Hj & E). pose proof (HS j Hj) as S0. unfold node in S0 at 1. rewrite E in S0.
  assert (I : In (node tau (length tau - 1 - j)) tau) by (apply nth_In; lia). apply HU in I. lra.
Qed.

(** ** The integrator *)
Section IntBack.
Context (cspts : nat -> string -> res (list R)) (f f' : daefun R) (t : list R) (order : nat) (method : string) (tau : list R) (gf gf' : option (R -> mat R)) (u p u' : mat R).
Context (HP : Points cspts order method tau) (HS : Symmetric tau) (HL : (2 <= length t)%nat) (HD : DaeOk f) (HD' : DaeOk f') (HT : TdpOk f gf) (HT' : TdpOk f' gf').
Context (Hq : f_ndae f = (f_nx f + f_nz f)%nat) (Hq' : f_ndae f' = (f_nx f' + f_nz f')%nat) (HA : Asc t).
Context (kap c : R) (Hk : kap < 0) (HC : Retimed f f' kap c) (Htd : forall s i, (i < f_ntdp f)%nat -> tdp_at gf' (c + kap * s) i = tdp_at gf s i).
Notation N := (ivals t).
Notation t' := (clock kap c (rev t)).
Context (al L : R) (Hal : CoefBound tau al) (Hss : ShortSteps t' al L) (Lip : LipDae f' L).
Context (x0 : nat -> R) (Hu : Shaped u (f_nu f) N) (Hu' : Shaped u' (f_nu f) N) (Hp : Shaped p (f_np f) 1) (Bu : Back (f_nu f) N 1 u u').

Lemma back_asc : Asc t'.
Proof.
  intros i j H. unfold clock in H. rewrite map_length, rev_length in H. rewrite !back_node by (unfold ivals; lia). pose proof (HA (N - j)%nat (N - i)%nat ltac:(unfold ivals; lia)). nra.
Qed.
Definition back (k : R) (m : mat R) : mat R := Mat (nr m) (nc m) (fun i j => at_m m i (nc m - 1 - j) / k).
Theorem integrator_back rf nan z0 out rf' nan' z0' out' : RootFinder rf -> RootFinder rf' -> integrator_ rf nan cspts f t order method gf x0 z0 u p = Ok out ->
  integrator_ rf' nan' cspts f' t' order method gf' (fun i => at_m (io_xf out) i (N - 1)) z0' u' p = Ok out' ->
  io_tc out' = clock kap c (rev (io_tc out)) /\ Back (f_nx f) (N * order) 1 (io_X out) (io_X out') /\
  (forall i n, (i < f_nx f)%nat -> (n + 1 < N)%nat -> at_m (io_xf out') i n = at_m (io_xf out) i (N - 2 - n)) /\ (forall i, (i < f_nx f)%nat -> at_m (io_xf out') i (N - 1) = x0 i).
Proof.
  intros Hrf Hrf' E E'. assert (HN : (1 <= N)%nat) by (unfold ivals; lia). pose proof HC as ((Ex & Ez & Eu & Ep & _) & _). assert (HL' : (2 <= length t')%nat) by (unfold clock; now rewrite map_length, rev_length).
  destruct (integrator_outputs cspts f t order method tau gf HP HL HD HT Hq rf nan x0 z0 u p Hu Hp out Hrf E) as (s & A & w & HV & Es & HR & HE & X0 & _ & Hxf & HX & _ & Htc & _).
  assert (Hu2 : Shaped u' (f_nu f') (ivals t')) by (rewrite back_ivals, Eu; exact Hu'). assert (Hp2 : Shaped p (f_np f') 1) by (rewrite Ep; exact Hp).
  destruct (integrator_outputs cspts f' t' order method tau gf' HP HL' HD' HT' Hq' rf' nan' _ z0' u' p Hu2 Hp2 out' Hrf' E') as (s' & A' & w' & HV' & Es' & HR' & HE' & X0' & _ & Hxf' & HX' & _ & Htc' & _).
  destruct (scheme_all cspts f t order method tau gf false _ _ _ _ _ HP HL HD HT HV A w HR) as (s1 & e & E1 & Ee & Hz & _). rewrite Es in E1. injection E1 as <-. apply Hz in HE.
  destruct (scheme_all cspts f' t' order method tau gf' false _ _ _ _ _ HP HL' HD' HT' HV' A' w' HR') as (s1 & e' & E1 & Ee' & Hz' & _ & Lt' & Ht' & _). rewrite Es' in E1. injection E1 as <-. apply Hz' in HE'.
  pose proof HV as ([Y1 Y2] & [K1 K2] & [Z1 Z2] & [U1 U2] & [P1 P2]).
  assert (B : forall k r c m, Shaped m r c -> Back r c k m (back k m)) by (intros k r c0 m [R1 R2] i j Hi Hj; cbn; now rewrite R2).
  assert (HV2 : VarsOk f' N order false (back 1 (io_x out)) (back kap (io_K out)) (back 1 (io_Z out)) u' p). { destruct Hu' as [V1 V2]. repeat split; cbn; congruence. }
  destruct (reverse_scheme cspts f f' t order method tau gf gf' false (io_x out) (io_K out) (io_Z out) u p (back 1 (io_x out)) (back kap (io_K out)) (back 1 (io_Z out)) u' p HP HS HL HD HD' HT HT' kap c ltac:(lra) HC Htd) with (s := s) (e := e) as (s2 & e2 & E2 & Ee2 & HE2 & T2 & X2 & _); try assumption.
  { apply B. now split. } { apply B. now split. } { apply B. now split. } { intros i j Hi Hj. assert (j = 0%nat) as -> by lia. cbn. field. }
  assert (HV3 := HV2). rewrite <- (back_ivals t kap c) in HV3.
  destruct (solution_unique cspts f' t' order method tau gf' false HP HL' HD' HT' back_asc al L Hal Hss Lip _ _ _ u' p _ _ _ HV' HV3 s' s2 e' e2 Es' Ee' HE' E2 Ee2 HE2) as (W1 & _ & W3).
  { intros i Hi. rewrite X0' by exact Hi. rewrite Hxf. cbn. rewrite Y2. replace (N - 1 + 1)%nat with (N + 1 - 1 - 0)%nat by lia. field. }
  rewrite back_ivals in W1, W3, Lt', Ht'. rewrite Ex in W1, W3. rewrite Htc, Htc', HX, HX'. split; [|split; [|split]].
  - rewrite <- T2. destruct (scheme_all cspts f' t' order method tau gf' false _ _ _ _ _ HP HL' HD' HT' HV3 A' w' HR') as (s3 & _ & E3 & _ & _ & _ & L4 & T4 & _). rewrite E2 in E3. injection E3 as <-. rewrite back_ivals in L4, T4.
    apply (nth_ext _ _ 0 0); [congruence|]. intros m Hm. rewrite Lt' in Hm. destruct (col_split m _ _ Hm) as (n & j & -> & Hn & Hj). change (node (sc_tc s') (n * order + j) = node (sc_tc s2) (n * order + j)). now rewrite Ht', T4.
  - intros i m Hi Hm. rewrite <- (X2 i m Hi Hm). destruct (col_split m _ _ Hm) as (n & j & -> & Hn & Hj). now apply W3.
  - intros i n Hi Hn. rewrite !Hxf', Hxf, W1 by (assumption || lia). cbn. rewrite Y2. replace (N + 1 - 1 - (n + 1))%nat with (N - 2 - n + 1)%nat by lia. field.
  - intros i Hi. rewrite Hxf', W1 by (assumption || lia). cbn. rewrite Y2. replace (N + 1 - 1 - (N - 1 + 1))%nat with 0%nat by lia. rewrite X0 by exact Hi. field.
Qed.
End IntBack.

(** ** Tableaux *)
Theorem tableau_symmetric tau tb : NoDup tau -> Symmetric tau -> butcher_points tau = Ok tb ->
  forall l, (l < length tau)%nat -> node (tb_b tb) l = node (tb_b tb) (length tau - 1 - l) /\
  forall j, (j < length tau)%nat -> at_m (tb_A tb) j l + at_m (tb_A tb) (length tau - 1 - j) (length tau - 1 - l) = node (tb_b tb) l.
Proof. intros Hd HS E. destruct (butcher_exact tau Hd) as (tb' & E' & _ & _ & _ & _ & H). rewrite E in E'. injection E' as <-. exact (rk_symmetric tau (at_m (tb_A tb)) (node (tb_b tb)) Hd HS H). Qed.
