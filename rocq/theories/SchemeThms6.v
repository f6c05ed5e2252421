(** The initial point of the integrator's rootfinder (C74) and the properties of a scheme (C75). *)
From Coq Require Import Reals Lra.
From Coquelicot Require Import Coquelicot.
From Verif Require Import PyBase IndexModel DMModel DMProofs StructModel StructSpec StructProofs PowerModel PowerSpec EntryModel StructsModel IneqModel DaeModel DaeSpec DaeThms StructsSpec StructsThms5 StructsThms7 StructsThms11 PowerThms NumModel NumInst NumSpec PolynomialModel PiecewiseModel PdqModel SchemeModel SchemeAttrModel
  PolySpec PiecewiseSpec PdqSpec SchemeSpec PolyMath PolynomialBase PolynomialThms PolynomialThms2 PiecewiseThms PdqThms PdqThms2 SchemeThms SchemeThms2 SchemeThms3 SchemeThms4.
Open Scope R_scope.

(** ** Flattened matrices *)
Lemma flat_cols (m : mat R) : dm_nz (mat_dm m) = flat_map (fun j => map (fun i => at_m m i j) (seq 0 (nr m))) (seq 0 (nc m)).
Proof.
  cbn [mat_dm dm_nz]. unfold all_pos. rewrite !flat_map_concat_map, concat_map, map_map. f_equal. apply map_ext. intros j. rewrite map_map. reflexivity.
Qed.
Lemma flat_const (n k : nat) (v : nat -> R) : dm_nz (mat_dm (Mat n k (fun i _ => v i))) = concat (repeat (map v (seq 0 n)) k).
Proof.
  rewrite flat_cols. cbn [nr nc at_m]. generalize 0%nat at 2 as a. induction k as [|k IH]; intros a; [reflexivity|]. cbn [seq flat_map repeat concat]. now rewrite IH.
Qed.
Lemma flat_zero n k : dm_nz (mat_dm (mzeros (T := R) n k)) = repeat 0 (n * k).
Proof.
  cbn [mat_dm dm_nz mzeros nr nc at_m]. rewrite <- (all_pos_length n k). induction (all_pos n k) as [|p l IH]; [reflexivity|]. cbn [map length repeat]. now rewrite IH.
Qed.
Definition unflat (n k : nat) (w : list R) : mat R := Mat n k (fun i j => nth (i + n * j) w 0).
Lemma flat_unflat n k w : length w = (n * k)%nat -> dm_nz (mat_dm (unflat n k w)) = w.
Proof.
  intros L. cbn [mat_dm dm_nz unflat nr nc at_m]. apply (nth_ext _ _ 0 0); [now rewrite map_length, all_pos_length|]. intros q Hq. rewrite map_length, all_pos_length in Hq.
  assert (Hn : (0 < n)%nat) by nia. pose proof (Nat.div_mod q n ltac:(lia)) as Hdm. pose proof (Nat.mod_upper_bound q n ltac:(lia)) as Hm.
  assert (Hd : (q / n < k)%nat) by (apply Nat.div_lt_upper_bound; lia).
  pose proof (nth_all_pos n k (q mod n) (q / n) Hm Hd) as Hp. replace (q mod n + n * (q / n))%nat with q in Hp by lia.
  set (F := fun p : nat * nat => nth (fst p + n * snd p) w 0). apply (nth_error_nth _ _ 0). rewrite nth_error_map, Hp. cbn [option_map fst snd]. f_equal. unfold F. cbn [fst snd]. f_equal. lia.
Qed.
Lemma flat_dm_mat (m : mat R) : dm_nz (mat_dm (dm_mat (mat_dm m))) = dm_nz (mat_dm m).
Proof.
  rewrite !flat_cols. destruct (dm_mat_dense m) as [[S1 S2] V]. rewrite S1, S2. rewrite !flat_map_concat_map. f_equal. apply map_ext_in. intros j Hj. apply map_ext_in. intros i Hi. apply in_seq in Hi, Hj. apply V; lia.
Qed.

Section Built.
Context (cspts : nat -> string -> res (list R)) (f : daefun R) (t : list R) (order : nat) (method : string) (tau : list R) (g : option (R -> mat R)).
Context (HP : Points cspts order method tau) (HL : (2 <= length t)%nat) (HD : DaeOk f) (HT : TdpOk f g) (Hsq : f_ndae f = (f_nx f + f_nz f)%nat).
Context (rf : (list R -> res (list R)) -> list R -> res (list R)) (nan : R) (x0 z0 : nat -> R) (u p : mat R) (Hu : Shaped u (f_nu f) (ivals t)) (Hp : Shaped p (f_np f) 1).
Notation N := (ivals t).
Notation sch x K Z u p := (scheme_ cspts f t order method g false x K Z u p).
Notation xz := (mzeros (f_nx f) (N + 1)).
Notation Kz := (mzeros (f_nx f) (N * order)).
Notation Zz := (mzeros (f_nz f) (N * order)).

(** ** C74: where the rootfinder starts *)
Theorem integrator_start out : integrator_ rf nan cspts f t order method g x0 z0 u p = Ok out ->
  exists s0 var w, sch xz Kz Zz (mzeros (f_nu f) N) (mzeros (f_np f) 1) = Ok s0 /\ sc_combine s0 ["x"; "K"; "Z"]%string = Ok var /\
    rf (eq_fun cspts f t order method g (so_c var) x0 u p)
       (concat (repeat (map x0 (seq 0 (f_nx f))) (N + 1)) ++ repeat 0 (f_nx f * (N * order)) ++ concat (repeat (map z0 (seq 0 (f_nz f))) (N * order))) = Ok w /\
    (length w = (f_nx f * (N + 1) + f_nx f * (N * order) + f_nz f * (N * order))%nat ->
     w = dm_nz (mat_dm (io_x out)) ++ dm_nz (mat_dm (io_K out)) ++ dm_nz (mat_dm (io_Z out))).
Proof.
  destruct (integrator_var cspts f t order method tau g HP HL HD HT) as (s0 & var & Es & Ev & Hvar). unfold integrator_. fold N. rewrite Es. cbn [rbind]. rewrite Ev. cbn [rbind].
  set (xi := Mat (f_nx f) (N + 1) (fun i _ => x0 i)). set (Zi := Mat (f_nz f) (N * order) (fun i _ => z0 i)).
  destruct (ulist_ok xi Kz Zi) as [Hnd Hok]. destruct (mk_plain _ Hnd Hok) as (ow & How & _). change (mk_struct [("x"%string, VMat (mat_dm xi)); ("K"%string, VMat (mat_dm Kz)); ("Z"%string, VMat (mat_dm Zi))]) with (mk_struct (map (fun y => (fst y, VMat (snd y))) (ulist xi Kz Zi))).
  rewrite How. cbn [rbind]. destruct (unknowns (f_nx f) (f_nz f) N (N * order) xi Kz Zi ow) as (_ & Hm & _); try exact How; try (split; reflexivity). rewrite Hm. cbn [rbind].
  destruct (unknowns (f_nx f) (f_nz f) N (N * order) xz Kz Zz var) as (Hsz & _ & _ & Hrt); try exact Hvar; try (split; reflexivity).
  destruct (eq_fun cspts f t order method g (so_c var) x0 u p (uvec xi Kz Zi)) as [e0|]; [|discriminate]. cbn [rbind]. destruct (negb _); [discriminate|]. destruct (_ && _); [discriminate|].
  assert (Hst : uvec xi Kz Zi = concat (repeat (map x0 (seq 0 (f_nx f))) (N + 1)) ++ repeat 0 (f_nx f * (N * order)) ++ concat (repeat (map z0 (seq 0 (f_nz f))) (N * order))) by (unfold uvec, xi, Zi; now rewrite !flat_const, flat_zero).
  rewrite Hst.
  destruct (rf _ _) as [w|] eqn:Er; [|discriminate]. cbn [rbind]. intros Hout. exists s0, var, w. split; [assumption || reflexivity|]. split; [assumption || reflexivity|]. split; [assumption || reflexivity|]. intros Lw.
  set (n1 := (f_nx f * (N + 1))%nat) in *. set (n2 := (f_nx f * (N * order))%nat) in *. set (n3 := (f_nz f * (N * order))%nat) in *.
  set (x1 := unflat (f_nx f) (N + 1) (firstn n1 w)). set (K1 := unflat (f_nx f) (N * order) (firstn n2 (skipn n1 w))). set (Z1 := unflat (f_nz f) (N * order) (skipn n2 (skipn n1 w))).
  assert (Ew : w = uvec x1 K1 Z1).
  { unfold uvec, x1, K1, Z1. rewrite !flat_unflat; [now rewrite !firstn_skipn| | |]; rewrite ?skipn_length, ?firstn_length, ?skipn_length; lia. }
  specialize (Hrt x1 K1 Z1 (conj eq_refl eq_refl) (conj eq_refl eq_refl) (conj eq_refl eq_refl)). rewrite <- Ew in Hrt. rewrite Hrt in Hout. cbn [rbind] in Hout.
  destruct (sch (dm_mat (mat_dm x1)) (dm_mat (mat_dm K1)) (dm_mat (mat_dm Z1)) u p) as [s|]; [|discriminate]. cbn [rbind] in Hout. injection Hout as <-. cbn [io_x io_K io_Z]. rewrite !flat_dm_mat. exact Ew.
Qed.
End Built.

Section Props.
Context (cspts : nat -> string -> res (list R)) (f : daefun R) (t : list R) (order : nat) (method : string) (tau : list R) (g : option (R -> mat R)) (rep : bool) (x K Z u p : mat R).
Context (HP : Points cspts order method tau) (HL : (2 <= length t)%nat) (HD : DaeOk f) (HT : TdpOk f g) (HV : VarsOk f (ivals t) order rep x K Z u p).
Notation N := (ivals t).

(** ** C75: the public properties *)
Theorem property_values s : scheme_ cspts f t order method g rep x K Z u p = Ok s ->
  sc_property s "numTotalCollocationPoints" = Ok (VNat (N * order)) /\
  sc_property s "t" = Ok (VVec t) /\ sc_property s "x" = Ok (VMatr x) /\ sc_property s "K" = Ok (VMatr K) /\ sc_property s "xdot" = Ok (VMatr K) /\
  sc_property s "Z" = Ok (VMatr Z) /\ sc_property s "u" = Ok (VMatr u) /\ sc_property s "p" = Ok (VMatr p) /\
  (exists tc, sc_property s "tc" = Ok (VVec tc) /\ length tc = (N * order)%nat /\ forall n j, (n < N)%nat -> (j < order)%nat -> node tc (n * order + j) = stage_t t tau n j) /\
  (exists U, sc_property s "U" = Ok (VMatr U) /\ Shaped U (f_nu f) (N * order) /\ forall i n j, (n < N)%nat -> (j < order)%nat -> at_m U i (n * order + j) = at_m u i n) /\
  (sc_property s "X" = Ok (VMatr (sc_X s)) /\ Shaped (sc_X s) (f_nx f) (N * order)) /\
  (sc_property s "q" = Ok (VMatr (sc_q s)) /\ Shaped (sc_q s) (f_nq f) (N + 1)) /\
  (sc_property s "Q" = Ok (VMatr (sc_Q s)) /\ Shaped (sc_Q s) (f_nq f) (N * order)) /\
  (sc_property s "quad" = Ok (VMatr (sc_quad s)) /\ Shaped (sc_quad s) (f_nq f) (N * order)) /\
  (sc_property s "eq" = Ok (VEq (sc_eq s)) /\ s_keys (cs_struct (so_c (sc_eq s))) = ["collocation"; "continuity"; "param"]%string) /\
  (exists tb, sc_property s "butcher" = Ok (VTab tb) /\ tb_c tb = tau).
Proof.
  destruct (scheme_full cspts f t order method tau g rep x K Z u p HP HL HD HT HV) as (s' & e & quad & E & EN & EM & Ex & EK & EZ & Eu & Ep & Et & Eb & SX & _ & Lt & Ht & SU & HU & Eq & Sq & _ & Sq' & _ & _ & SQ & _ & Ee & D & C & _ & _ & _ & _ & _ & _ & Hk & _).
  rewrite E. intros [= <-]. destruct (tbl_ok cspts order method tau HP) as (_ & _ & _ & _ & C1 & _). destruct HP as (_ & _ & L & _).
  unfold sc_property, sc_field, sc_returns, sc_fields.
  cbn [dict_get String.eqb Ascii.eqb Bool.eqb rbind]. rewrite EN, EM, Ex, EK, EZ, Eu, Ep, Et, Eb. rewrite (Nat.mul_comm order N).
  repeat (split; [reflexivity|]). split; [eexists; split; [reflexivity|]; split; assumption|]. split; [eexists; split; [reflexivity|]; split; assumption|]. split; [eauto|]. split; [eauto|]. split; [eauto|].
  split; [rewrite Eq; auto|]. split; [eauto|]. eexists. split; [reflexivity|]. exact C1.
Qed.
End Props.

Theorem pdq_never (s : scheme R) : sc_property s "pdq" = Err EAttr.
Proof. reflexivity. Qed.
