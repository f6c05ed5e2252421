(** Proofs about interpolators, Chebyshev points and Butcher tableaux (C47-C50). *)
From Coq Require Import Reals Lra Permutation.
From Coquelicot Require Import Coquelicot.
From Verif Require Import PyBase NumModel NumInst NumSpec PolynomialModel PolySpec PolyMath PolynomialBase PolynomialThms.
Open Scope R_scope.

(** ** C47 *)
Lemma npow_pow (x : R) k : npow x k = x ^ k.
Proof. induction k as [|k IH]; [reflexivity|]. cbn [npow pow]. rewrite IH. rnum. ring. Qed.
Lemma moment_poly n (x : list R) (s : nat -> R) (g : R -> R) (v : nat -> R) : PolyLt n g -> (length x = n)%nat ->
  (forall i, (i < n)%nat -> Sum n (fun j => node x j ^ i * s j) = v i) ->
  forall c, length c = n -> (forall t, g t = peval c t) -> Sum n (fun j => g (node x j) * s j) = Sum n (fun i => nth i c 0 * v i).
Proof.
  intros _ _ H c Lc Hc. rewrite (Sum_ext _ _ (fun j => Sum n (fun i => nth i c 0 * (node x j ^ i * s j)))).
  - rewrite Sum_swap. apply Sum_ext. intros i Hi. rewrite <- H by exact Hi. now rewrite <- Sum_scal.
  - intros j _. rewrite Hc, peval_Sum, Lc, <- Sum_scal_r. apply Sum_ext. intros i _. ring.
Qed.
Definition vandermonde (n : nat) (x : list R) : mat R := Mat n (length x) (fun i j => npow (vget x j) i).
Theorem vandermonde_nonsingular x : NoDup x -> Nonsingular (vandermonde (length x) x).
Proof.
  intros Hd. split; [reflexivity|]. cbn [nr nc vandermonde at_m]. intros s H k Hk.
  assert (Hk' := lagrange_poly x k Hk). destruct (PolyLt_len _ _ Hk') as (c & Lc & Hc).
  pose proof (moment_poly (length x) x s (polyval (lagrange x k)) (fun _ => 0) Hk' eq_refl) as M.
  specialize (M ltac:(intros i Hi; rewrite <- (H i Hi); apply Sum_ext; intros j _; now rewrite npow_pow) c Lc Hc).
  rewrite (Sum_single _ k _ Hk) in M; [|intros j Hj Hn; rewrite lagrange_delta by assumption; destruct (Nat.eqb_spec k j); [congruence|ring]].
  rewrite lagrange_delta, Nat.eqb_refl in M by assumption. rewrite (Sum_0 (length x) (fun i => nth i c 0 * 0)) in M by (intros; ring). lra.
Qed.
(** The equations solved by [polynomialInterpolator] have a solution for all query points. *)
Theorem vandermonde_solvable x q : NoDup x -> x <> [] ->
  exists S : nat -> nat -> R, forall i j, (i < length x)%nat -> (j < length q)%nat ->
    Sum (length x) (fun k => at_m (vandermonde (length x) x) i k * S k j) = at_m (vandermonde (length x) q) i j.
Proof.
  intros Hd Hx. exists (fun k j => polyval (lagrange x k) (node q j)). intros i j Hi Hj. cbn [vandermonde at_m]. rewrite npow_pow. change (vget q j) with (node q j).
  rewrite (lagrange_interp x (fun t => t ^ i) Hd) with (t := node q j).
  - apply Sum_ext. intros k Hk. rewrite npow_pow. reflexivity.
  - exists (repeat 0 i ++ [1]). split; [rewrite app_length, repeat_length; simpl; lia|]. intros t. rewrite peval_app, peval_zeros, repeat_length. simpl. ring.
Qed.
Theorem interpolators_agree solve x u q m : Solver solve -> NoDup x -> x <> [] -> q <> [] -> nc u = length x ->
  poly_interpolator solve (PVec x) u (PVec q) = Ok m ->
  exists m', bary_interpolator (PVec x) u (PVec q) = Ok m' /\ MatEq m m'.
Proof.
  intros HS Hd Hx Hq Hu. unfold poly_interpolator. cbn [query_powers rbind].
  destruct (solve _ _) as [S|] eqn:ES; [|discriminate]. apply HS in ES. unfold Solution in ES. cbn [nr nc at_m] in ES. destruct ES as (Sr & Sc & Sol). cbn [rbind]. unfold mdot. rewrite Hu, Sr, Nat.eqb_refl.
  intros [= <-]. destruct (barycentric_interpolator x u q Hd Hx Hq Hu) as (m' & Em & Hr & Hc & Hm). exists m'. split; [exact Em|]. cbn [nr nc]. split; [auto|]. cbn [nr nc]. split; [congruence|].
  cbn [nr nc at_m]. intros i k Hi Hk. rewrite Sc in Hk. rewrite nsum_Sum. set (g := fun t => Sum (length x) (fun j => at_m u i j * polyval (lagrange x j) t)).
  assert (Pg : PolyLt (length x) g) by (apply (PolyLt_Sum _ _ (fun j t => at_m u i j * polyval (lagrange x j) t)); intros; now apply PolyLt_scal, lagrange_poly).
  assert (Gn : forall j, (j < length x)%nat -> g (node x j) = at_m u i j).
  { intros j Hj. unfold g. rewrite (Sum_single _ j _ Hj); [rewrite lagrange_delta, Nat.eqb_refl by assumption; ring|]. intros j' Hj' Hn. rewrite lagrange_delta by assumption. destruct (Nat.eqb_spec j' j); [contradiction|ring]. }
  rewrite (Hm i k g Hk Pg Gn). destruct (PolyLt_len _ _ Pg) as (c & Lc & Hc').
  pose proof (moment_poly (length x) x (fun j => at_m S j k) g (fun i => node q k ^ i) Pg eq_refl) as M.
  specialize (M ltac:(intros i' Hi'; pose proof (Sol i' k Hi' Hk) as E; rewrite npow_pow in E; unfold node; unfold vget in E; rnum; rewrite <- E; apply Sum_ext; intros j _; now rewrite npow_pow) c Lc Hc').
  rewrite Hc', peval_Sum, Lc, <- M. apply Sum_ext. intros j Hj. rewrite Gn by exact Hj. reflexivity.
Qed.

(** The numbers asked for: one number, a vector, or the row of an array. *)
Inductive Queries : nparg R -> list R -> Prop :=
| QNum t : Queries (PNum t) [t]
| QVec q : Queries (PVec q) q
| QRow m : nr m = 1%nat -> Queries (PArr m) (map (at_m m 0) (seq 0 (nc m))).
Lemma query_row n xx q : Queries xx q -> exists P, query_powers n xx = Ok P /\ MatEq P (vandermonde n q) /\ nr P = n /\ nc P = length q.
Proof.
  intros [t|q'|m Hm]; cbn [query_powers].
  - eexists. split; [reflexivity|]. split; [split; [reflexivity|split; [reflexivity|]]|split; reflexivity]. cbn [nr nc at_m vandermonde]. intros i j Hi Hj.
    replace j with 0%nat by lia. reflexivity.
  - eexists. split; [reflexivity|]. split; [split; [reflexivity|split; reflexivity]|split; reflexivity].
  - rewrite Hm, Nat.eqb_refl. eexists. split; [reflexivity|]. cbn [nr nc]. rewrite map_length, seq_length. split; [|split; reflexivity].
    split; [reflexivity|]. split; [cbn [vandermonde nr nc]; now rewrite map_length, seq_length|]. cbn [nr nc at_m vandermonde]. intros i j Hi Hj.
    unfold vget. rewrite nth_map_seq by lia. reflexivity.
Qed.
(** [polynomialInterpolator] answers every such query, also none, with the values of the
    interpolation polynomials. *)
Theorem polynomial_interpolator solve x u xx q : Solver solve -> Complete solve -> NoDup x -> x <> [] -> nc u = length x -> Queries xx q ->
  exists m, poly_interpolator solve (PVec x) u xx = Ok m /\ nr m = nr u /\ nc m = length q /\
    forall i k f, (k < length q)%nat -> PolyLt (length x) f -> (forall j, (j < length x)%nat -> f (node x j) = at_m u i j) -> at_m m i k = f (node q k).
Proof.
  intros HS HC Hd Hx Hu HQ. unfold poly_interpolator. destruct (query_row (length x) xx q HQ) as (P & -> & (_ & _ & PE) & Pr & Pc). cbn [rbind].
  destruct (vandermonde_solvable x q Hd Hx) as (S & HSol).
  destruct (HC (Mat (length x) (length x) (fun i j => npow (vget x j) i)) P) as (s & Es).
  - exact (vandermonde_nonsingular x Hd).
  - cbn [nr]. exact Pr.
  - exists (Mat (length x) (length q) S). split; [reflexivity|]. split; [cbn [nc]; now rewrite Pc|]. cbn [nr nc at_m]. intros i j Hi Hj. rewrite Pc in Hj.
    rewrite PE by (rewrite ?Pr, ?Pc; assumption). rewrite <- (HSol i j Hi Hj). reflexivity.
  - rewrite Es. cbn [rbind]. apply HS in Es. destruct Es as (Sr & Sc & Sol). cbn [nr nc at_m] in *. unfold mdot. rewrite Hu, Sr, Nat.eqb_refl.
    eexists. split; [reflexivity|]. cbn [nr nc at_m]. split; [reflexivity|]. split; [congruence|]. intros i k f Hk Pf Fn. rewrite nsum_Sum.
    destruct (PolyLt_len _ _ Pf) as (c & Lc & Hc').
    pose proof (moment_poly (length x) x (fun j => at_m s j k) f (fun i => node q k ^ i) Pf eq_refl) as M.
    specialize (M ltac:(intros i' Hi'; pose proof (Sol i' k Hi' ltac:(rewrite Pc; exact Hk)) as E; rewrite (PE i' k ltac:(rewrite Pr; exact Hi') ltac:(rewrite Pc; exact Hk)) in E; cbn [vandermonde at_m] in E; rewrite npow_pow in E; unfold node; unfold vget in E; rnum; rewrite <- E; apply Sum_ext; intros j _; now rewrite npow_pow) c Lc Hc').
    rewrite Hc', peval_Sum, Lc, <- M. apply Sum_ext. intros j Hj. rewrite Fn by exact Hj. reflexivity.
Qed.
(** [barycentricInterpolator]: one number is a query; arrays and an empty query raise. *)
Theorem barycentric_queries x u : x <> [] ->
  (forall t, bary_interpolator (PVec x) u (PNum t) = bary_interpolator (PVec x) u (PVec [t])) /\
  (forall m, bary_interpolator (PVec x) u (PArr m) = Err EAssert) /\
  bary_interpolator (PVec x) u (PVec []) = Err EValue.
Proof.
  intros Hx. unfold bary_interpolator. destruct (proj2 (basis_accepts (PVec x)) (or_intror (ex_intro _ x (conj eq_refl Hx)))) as [b ->].
  split; [|split]; reflexivity.
Qed.
(** Nodes that are not a vector, or none, are refused; [barycentricInterpolator] takes one number. *)
Theorem interpolator_nodes solve u xx :
  (forall t, poly_interpolator solve (PNum t) u xx = Err EAssert) /\ (forall m, poly_interpolator solve (PArr m) u xx = Err EAssert) /\
  (forall m, bary_interpolator (PArr m) u xx = Err EAssert) /\ bary_interpolator (PVec []) u xx = Err EAssert /\
  (forall t, bary_interpolator (PNum t) u xx = bary_interpolator (PVec [t]) u xx).
Proof. repeat split. Qed.
(** Arrays of other shapes are refused. *)
Theorem polynomial_interpolator_array solve x u m : length x <> 1%nat -> nr m <> 1%nat -> nr m <> length x ->
  poly_interpolator solve (PVec x) u (PArr m) = Err EValue.
Proof.
  intros H1 H2 H3. unfold poly_interpolator, query_powers. apply Nat.eqb_neq in H1, H2, H3. now rewrite H1, H2, H3.
Qed.

(** ** C48 *)
Theorem chebyshev_points (cspts : nat -> string -> res (list R)) order : (1 <= order)%nat ->
  exists tau, collocation_points cos PI cspts order "chebyshev" = Ok tau /\ length tau = (order + 1)%nat /\ Asc tau /\ node tau 0 = 0 /\ node tau order = 1.
Proof.
  intros Ho. unfold collocation_points. cbn [String.eqb Ascii.eqb Bool.eqb]. destruct (Nat.eqb_spec order 0); [lia|]. eexists. split; [reflexivity|]. split; [now rewrite map_length, seq_length|].
  assert (PO : 0 < INR order) by (apply lt_0_INR; lia).
  assert (N : forall k, (k <= order)%nat -> node (map (fun k => ((n1 - cos (PI * nof k / nof order)) / (n1 + n1))%num) (seq 0 (order + 1))) k = (1 - cos (PI * INR k / INR order)) / 2).
  { intros k Hk. unfold node. rewrite nth_map_seq by lia. rnum. lra. }
  split; [|split].
  - intros i j Hij. rewrite map_length, seq_length in Hij. rewrite !N by lia. assert (cos (PI * INR j / INR order) < cos (PI * INR i / INR order)); [|lra].
    assert (B : forall k, (k <= order)%nat -> 0 <= PI * INR k / INR order <= PI).
    { intros k Hk. pose proof PI_RGT_0. assert (0 <= INR k <= INR order) by (split; [apply pos_INR|now apply le_INR]). unfold Rdiv. split.
      - apply Rmult_le_pos; [apply Rmult_le_pos; lra|]. left. now apply Rinv_0_lt_compat.
      - apply (Rmult_le_reg_r (INR order)); [exact PO|]. rewrite Rmult_assoc, Rinv_l, Rmult_1_r by lra. apply Rmult_le_compat_l; lra. }
    apply cos_decreasing_1; try apply B; try lia. unfold Rdiv. apply Rmult_lt_compat_r; [now apply Rinv_0_lt_compat|]. apply Rmult_lt_compat_l; [apply PI_RGT_0|]. apply lt_INR. lia.
  - rewrite N by lia. simpl INR. replace (PI * 0 / INR order) with 0 by (field; lra). rewrite cos_0. lra.
  - rewrite N by lia. replace (PI * INR order / INR order) with PI by (field; lra). rewrite cos_PI. lra.
Qed.
Lemma Asc_NoDup l : Asc l -> NoDup l.
Proof.
  intros H. apply (NoDup_nth l 0). intros i j Hi Hj E. destruct (Nat.lt_total i j) as [L|[L|L]]; [|exact L|]; exfalso.
  - specialize (H i j (conj L Hj)). unfold node in H. lra.
  - specialize (H j i (conj L Hi)). unfold node in H. lra.
Qed.
(** Changing the interval scales the differentiation matrix. *)
Lemma scaled_diff (tau : list R) (h a : R) f j : h <> 0 -> NoDup tau -> (j < length tau)%nat -> PolyLt (length tau) f ->
  is_derive f (node tau j * h + a) (Sum (length tau) (fun k => dcoef tau j k / h * f (node tau k * h + a))).
Proof.
  intros Hh Hd Hj Hf. destruct (PolyLt_ex_derive _ f (node tau j * h + a) Hf) as [l Hl].
  assert (G : PolyLt (length tau) (fun s => f (s * h + a))) by (apply (PolyLt_ext _ (fun s => f (h * s + a))); [intros; f_equal; ring|now apply PolyLt_comp]).
  pose proof (dcoef_exact tau _ j Hd Hj G) as D. assert (D2 : is_derive (fun s => f (s * h + a)) (node tau j) (h * l)).
  { apply (is_derive_comp f (fun s => s * h + a)); [exact Hl|]. evar_last; [apply (is_derive_plus (V := R_NormedModule)); [apply (is_derive_mult (fun s => s) (fun _ => h)); [apply is_derive_id|apply der_const|apply Rmult_comm]|apply der_const]|]. unfold plus, mult, one. simpl. unfold plus, mult. simpl. lra. }
  pose proof (eq_trans (eq_sym (is_derive_unique _ _ _ D2)) (is_derive_unique _ _ _ D)) as E. replace (Sum _ _) with l; [exact Hl|].
  rewrite (Sum_ext _ _ (fun k => / h * (dcoef tau j k * f (node tau k * h + a)))) by (intros; unfold Rdiv; ring). rewrite Sum_scal, <- E. change (l = / h * (h * l)). rewrite <- Rmult_assoc, Rinv_l, Rmult_1_l by exact Hh. reflexivity.
Qed.
Theorem cheb_spec (cspts : nat -> string -> res (list R)) N (t0 tf : R) : (1 <= N)%nat -> t0 <> tf ->
  exists D t, cheb cos PI cspts N t0 tf = Ok (D, t) /\ length t = (N + 1)%nat /\ nr D = (N + 1)%nat /\ nc D = (N + 1)%nat /\
    node t 0 = t0 /\ node t N = tf /\ (t0 < tf -> Asc t) /\ NoDup t /\
    forall f j, PolyLt (N + 1) f -> (j < N + 1)%nat -> is_derive f (node t j) (Sum (N + 1) (fun k => at_m D j k * f (node t k))).
Proof.
  intros HN Ht. destruct (chebyshev_points cspts N HN) as (tau & Et & Lt & At & T0 & T1). unfold cheb. rewrite Et. cbn [rbind]. assert (Hn : tau <> []) by (intros ->; simpl in Lt; lia).
  rewrite (basis_eq tau Hn). cbn [rbind b_D]. eexists _, _. split; [reflexivity|]. rewrite map_length. cbn [mdivs nr nc at_m]. rnum.
  assert (G : forall k, (k < N + 1)%nat -> node (map (fun t => t * (tf - t0) + t0) tau) k = node tau k * (tf - t0) + t0).
  { intros k Hk. unfold node. rewrite (nth_indep _ 0 (0 * (tf - t0) + t0)) by (rewrite map_length; lia). now rewrite (map_nth (fun t => t * (tf - t0) + t0)). }
  split; [exact Lt|]. split; [exact Lt|]. split; [exact Lt|]. split; [rewrite G, T0 by lia; ring|]. split; [rewrite G, T1 by lia; ring|]. split; [|split].
  - intros L i j Hij. rewrite map_length in Hij. rewrite !G by lia. specialize (At i j Hij). apply Rplus_lt_compat_r, Rmult_lt_compat_r; lra.
  - apply FinFun.Injective_map_NoDup; [|now apply Asc_NoDup]. intros x y E. apply Rplus_eq_reg_r in E. apply Rmult_eq_reg_r in E; [exact E|lra].
  - intros f j Hf Hj. rewrite G by exact Hj. rewrite (Sum_ext _ _ (fun k => dcoef tau j k / (tf - t0) * f (node tau k * (tf - t0) + t0))) by (intros k Hk; rewrite G by exact Hk; reflexivity).
    rewrite <- Lt in *. apply scaled_diff; auto; [lra|now apply Asc_NoDup].
Qed.

(** ** C49 *)
Theorem butcher_exact tau : NoDup tau ->
  exists tb, butcher_points tau = Ok tb /\ nr (tb_A tb) = length tau /\ nc (tb_A tb) = length tau /\ length (tb_b tb) = length tau /\ tb_c tb = tau /\
    (forall f, PolyLt (length tau) f ->
      (forall i, (i < length tau)%nat -> is_RInt f 0 (node tau i) (Sum (length tau) (fun j => at_m (tb_A tb) i j * f (node tau j)))) /\
      is_RInt f 0 1 (Sum (length tau) (fun j => node (tb_b tb) j * f (node tau j)))).
Proof.
  intros Hd. unfold butcher_points, tableau_. cbn [nr nc]. rewrite map_length, seq_length, Nat.eqb_refl. cbn [rassert rbind]. eexists. split; [reflexivity|]. cbn [tb_A tb_b tb_c nr nc at_m].
  split; [reflexivity|]. split; [reflexivity|]. split; [now rewrite map_length, seq_length|]. split; [reflexivity|]. intros f Hf.
  assert (I : forall x, is_RInt f 0 x (Sum (length tau) (fun j => polyval (polyint (lagrange tau j)) x * f (node tau j)))).
  { intros x. set (F := fun t => Sum (length tau) (fun j => f (node tau j) * polyval (polyint (lagrange tau j)) t)).
    replace (Sum _ _) with (F x - F 0).
    - apply (is_RInt_poly (length tau)); [exact Hf|]. intros t. rewrite (lagrange_interp tau f Hd Hf t).
      apply (is_derive_Sum (length tau) (fun j t => f (node tau j) * polyval (polyint (lagrange tau j)) t) (fun j t => f (node tau j) * polyval (lagrange tau j) t)).
      intros k _. apply is_derive_scal, polyint_derive.
    - unfold F. rewrite (Sum_0 _ (fun j => f (node tau j) * polyval (polyint (lagrange tau j)) 0)) by (intros; rewrite polyint_0; ring). rewrite Rminus_0_r. apply Sum_ext. intros. ring. }
  split.
  - intros i Hi. apply I.
  - rewrite (Sum_ext _ _ (fun j => polyval (polyint (lagrange tau j)) 1 * f (node tau j))); [apply I|]. intros j Hj. unfold node at 1. rewrite nth_map_seq by exact Hj. reflexivity.
Qed.
Theorem butcher_row_sums tau tb : NoDup tau -> tau <> [] -> butcher_points tau = Ok tb ->
  (forall i, (i < length tau)%nat -> Sum (length tau) (fun j => at_m (tb_A tb) i j) = node tau i) /\ Sum (length tau) (fun j => node (tb_b tb) j) = 1.
Proof.
  intros Hd Hn Htb. destruct (butcher_exact tau Hd) as (tb' & E & _ & _ & _ & _ & H). rewrite Htb in E. injection E as <-.
  assert (P : PolyLt (length tau) (fun _ => 1)) by (destruct tau; [contradiction|apply PolyLt_const]). destruct (H _ P) as [HA Hb].
  assert (C : forall x, is_RInt (fun _ : R => 1) 0 x x) by (intros x; evar_last; [apply (is_RInt_const (V := R_CompleteNormedModule) 0 x 1)|unfold scal; simpl; unfold mult; simpl; ring]).
  split.
  - intros i Hi. specialize (HA i Hi). apply (is_RInt_unique (V := R_CompleteNormedModule)) in HA. pose proof (C (node tau i)) as HC. apply (is_RInt_unique (V := R_CompleteNormedModule)) in HC.
    rewrite HC in HA. rewrite HA. apply Sum_ext. intros; ring.
  - apply (is_RInt_unique (V := R_CompleteNormedModule)) in Hb. pose proof (C 1) as HC. apply (is_RInt_unique (V := R_CompleteNormedModule)) in HC. rewrite HC in Hb. etransitivity; [|symmetry; exact Hb]. apply Sum_ext. intros; ring.
Qed.
(** [butcherTableuForCollocationMethod]: the tableau of CasADi's points *)
Theorem butcher_method_spec (cspts : nat -> string -> res (list R)) order method tau : cspts order method = Ok tau -> butcher_method cspts order method = butcher_points tau.
Proof. intros E. unfold butcher_method. now rewrite E. Qed.

(** ** C50 *)
Theorem tableau_accepts (A b c : ndarr R) :
  (exists tb, tableau_ A b c = Ok tb) <->
  exists (m : mat R) vb vc, A = NdMat m /\ b = NdVec vb /\ c = NdVec vc /\ nr m = nc m /\ length vb = nr m /\ length vc = nr m.
Proof.
  split.
  - intros [tb H]. unfold tableau_ in H. destruct A as [|?|m|]; try discriminate. destruct (Nat.eqb_spec (nr m) (nc m)) as [E1|]; [|discriminate]. simpl in H.
    destruct b as [|vb|?|]; try discriminate. destruct (Nat.eqb_spec (length vb) (nc m)) as [E2|]; [|discriminate]. simpl in H. destruct c as [|vc|?|]; try discriminate.
    destruct (Nat.eqb_spec (length vc) (nr m)) as [E3|]; [|discriminate]. exists m, vb, vc. repeat split; congruence.
  - intros (m & vb & vc & -> & -> & -> & E1 & E2 & E3). unfold tableau_. rewrite E3, E2, <- E1, Nat.eqb_refl. simpl. eauto.
Qed.
Theorem tableau_fields (A b c : ndarr R) tb : tableau_ A b c = Ok tb -> A = NdMat (tb_A tb) /\ b = NdVec (tb_b tb) /\ c = NdVec (tb_c tb).
Proof.
  unfold tableau_. destruct A as [|?|m|]; try discriminate. destruct (nr m =? nc m)%nat; [|discriminate]. simpl. destruct b as [|vb|?|]; try discriminate.
  destruct (length vb =? nc m)%nat; [|discriminate]. simpl. destruct c as [|vc|?|]; try discriminate. destruct (length vc =? nr m)%nat; [|discriminate]. simpl. intros [= <-]. auto.
Qed.
