(** Proofs about DAE models (C40-C42). *)
From Coq Require Import Permutation Reals Lra DecimalString DecimalNat DecimalFacts.
From Verif Require Import PyBase IndexModel DMModel StructModel StructSpec PowerModel PowerSpec
  IndexProofs StructProofs LayoutProofs LayoutThms LayoutExamples DMProofs PowerProofs PowerThms SliceProofs PowerThms2 PowerThms3 PowerThms4
  EntryModel EntrySpec EntryProofs StructsModel StructsSpec StructsThms1 StructsThms2 StructsThms3 StructsThms4 StructsThms6 StructsThms11
  IneqModel IneqSpec IneqThms DaeModel DaeSpec.
Open Scope nat_scope.

(** ** C40 *)
Lemma vassert_ok b : vassert b = Ok tt <-> b = true.
Proof. destruct b; simpl; split; congruence. Qed.
Lemma is_column_iff m : MoOk m -> is_column m = true <-> column m.
Proof.
  intros [_ H]. unfold is_column, column. destruct (mo_str m) as [s|]; [|apply Nat.eqb_eq].
  destruct H as (_ & c & _ & E). unfold dm_nc. rewrite E. simpl. split; auto.
Qed.
Lemma dict_get_In {V} k (kw : list (string * V)) m : dict_get k kw = Some m -> In (k, m) kw.
Proof.
  induction kw as [|[k' v] kw IH]; simpl; [discriminate|]. destruct (String.eqb_spec k k') as [->|_]; [intros [= ->]; now left|intros H; right; auto].
Qed.
Lemma kw_get k kw m : KwOk kw -> dict_get k kw = Some m -> MoOk m.
Proof. intros H E. exact (H k m (dict_get_In _ _ _ E)). Qed.

Lemma new_sym_ok id n : MoOk (new_sym id n).
Proof. split; [|exact I]. apply dense_ok. now rewrite map_length, all_pos_length. Qed.
Lemma numel_new id n : numel (new_sym id n) = n.
Proof. unfold numel, dm_nr, dm_nc. simpl. lia. Qed.

Lemma col_input_iff k kw : KwOk kw -> (exists z, col_input k kw = Ok z) <-> if_given k kw (fun z => column z /\ symbolic z).
Proof.
  intros Hk. unfold col_input, if_given, given. destruct (dict_get k kw) as [z|] eqn:E; [|split; [now left|eauto]].
  pose proof (is_column_iff z (kw_get _ _ _ Hk E)) as HC. split.
  - intros [z' H]. right. exists z. split; [reflexivity|]. destruct (is_column z); [|discriminate]. unfold symbolic. destruct (mo_valid z); [|discriminate]. split; [now apply HC|reflexivity].
  - intros [H|(m & [= <-] & H1 & H2)]; [discriminate|]. apply HC in H1. rewrite H1, H2. simpl. eauto.
Qed.
Lemma col_input_val k kw z : col_input k kw = Ok z -> stored_as z k kw /\ numel z = size_of k kw.
Proof.
  unfold col_input, stored_as, size_of. destruct (dict_get k kw) as [m|].
  - destruct (is_column m); [|discriminate]. destruct (mo_valid m); [|discriminate]. intros [= ->]. auto.
  - intros [= <-]. auto.
Qed.
Lemma any_input_iff k kw : (exists z, any_input k kw = Ok z) <-> if_given k kw symbolic.
Proof.
  unfold any_input, if_given, given, symbolic. destruct (dict_get k kw) as [z|] eqn:E; [|split; [now left|eauto]]. split.
  - intros [z' H]. right. exists z. split; [reflexivity|]. destruct (mo_valid z); [reflexivity|discriminate].
  - intros [H|(m & [= <-] & H)]; [discriminate|]. rewrite H. simpl. eauto.
Qed.
Lemma any_input_val k kw z : any_input k kw = Ok z -> stored_as z k kw.
Proof.
  unfold any_input, stored_as. destruct (dict_get k kw) as [m|].
  - destruct (mo_valid m); [|discriminate]. now intros [= ->].
  - now intros [= <-].
Qed.

Theorem base_iff tid kw : KwOk kw -> (exists d, dae_init tid kw = Ok d) <-> BaseOk kw.
Proof.
  intros Hk. unfold dae_init, BaseOk. rewrite <- !col_input_iff, <- !any_input_iff by exact Hk. unfold given.
  destruct (dict_get "x"%string kw) as [x|] eqn:Ex; [|split; [intros [d H]; discriminate|intros ((x & H & _) & _); discriminate]].
  pose proof (is_column_iff x (kw_get _ _ _ Hk Ex)) as HC. unfold symbolic.
  assert (HT : (exists t, match dict_get "t"%string kw with Some t => let* _ := vassert (mo_valid t) in let* b := is_scalar t in let* _ := vassert b in Ok t | None => Ok (new_sym tid 1) end = Ok t)
     <-> if_given "t" kw (fun t => matrix t /\ mo_valid t = true /\ numel t = 1)).
  { unfold if_given, given. destruct (dict_get "t"%string kw) as [t|]; [|split; [now left|eauto]]. split.
    - intros [t' H]. right. exists t. split; [reflexivity|]. destruct (mo_valid t); [|discriminate]. unfold is_scalar, matrix in *. destruct (mo_str t); [discriminate|]. cbn [rbind vassert] in H. destruct (Nat.eqb_spec (numel t) 1); [auto|discriminate].
    - intros [H|(m & [= <-] & H0 & H1 & H2)]; [discriminate|]. unfold is_scalar. rewrite H0, H1, H2. simpl. eauto. }
  rewrite <- HT. split.
  - intros [d H]. destruct (is_column x); [|discriminate]. destruct (mo_valid x) eqn:Ev; [|discriminate]. cbn [vassert rbind] in H.
    destruct (col_input "z" kw) as [z|]; [|discriminate]. destruct (col_input "u" kw) as [u|]; [|discriminate]. destruct (any_input "p" kw) as [p|]; [|discriminate]. cbn [rbind] in H.
    destruct (match dict_get "t"%string kw with Some _ => _ | None => _ end) as [t|]; [|discriminate]. cbn [rbind] in H. destruct (any_input "tdp" kw) as [tdp|]; [|discriminate].
    split; [exists x; split; [reflexivity|split; [now apply HC|exact Ev]]|]. repeat (split; [eauto|]). eauto.
  - intros ((x' & [= <-] & H1 & H2) & (z & ->) & (u & ->) & (p & ->) & (t & ->) & (tdp & ->)). apply HC in H1. rewrite H1, H2. simpl. eauto.
Qed.

Lemma base_fields tid kw d : dae_init tid kw = Ok d ->
  given "x" kw (eq (d_x d)) /\ stored_as (d_z d) "z" kw /\ stored_as (d_u d) "u" kw /\ stored_as (d_p d) "p" kw /\
  stored_as (d_quad d) "quad" kw /\ stored_as (d_tdp d) "tdp" kw /\
  (match dict_get "t"%string kw with Some t => d_t d = t | None => dm_shape (mo_mat (d_t d)) = (1, 1) end) /\
  numel (d_x d) = size_of "x" kw /\ numel (d_z d) = size_of "z" kw.
Proof.
  unfold dae_init. unfold given. unfold size_of at 1. destruct (dict_get "x"%string kw) as [x|] eqn:Ex; [|discriminate]. intros H.
  destruct (is_column x); [|discriminate]. destruct (mo_valid x); [|discriminate]. cbn [vassert rbind] in H.
  destruct (col_input "z" kw) as [z|] eqn:Ez; [|discriminate]. destruct (col_input "u" kw) as [u|] eqn:Eu; [|discriminate]. destruct (any_input "p" kw) as [p|] eqn:Ep; [|discriminate]. cbn [rbind] in H.
  destruct (match dict_get "t"%string kw with Some _ => _ | None => _ end) as [t|] eqn:Et; [|discriminate]. cbn [rbind] in H. destruct (any_input "tdp" kw) as [tdp|] eqn:Etdp; [|discriminate].
  injection H as <-. simpl. destruct (col_input_val _ _ _ Ez). destruct (col_input_val _ _ _ Eu). apply any_input_val in Ep, Etdp.
  split; [eauto|]. do 3 (split; [assumption|]). split; [unfold stored_as; destruct (dict_get "quad"%string kw); reflexivity|]. split; [assumption|]. split; [|auto].
  destruct (dict_get "t"%string kw) as [t'|]; [|injection Et as <-; reflexivity]. destruct (mo_valid t'); [|discriminate]. cbn [rbind vassert] in Et. destruct (is_scalar t') as [b|]; [|discriminate]. destruct b; [|discriminate]. now injection Et.
Qed.

Theorem semi_iff tid kw : KwOk kw -> (exists d, semi_init tid kw = Ok d) <-> SemiOk kw.
Proof.
  intros Hk. unfold semi_init, SemiOk. rewrite <- (base_iff tid kw Hk). split.
  - intros [d H]. destruct (dae_init tid kw) as [d0|] eqn:E0; [|discriminate]. cbn [rbind] in H. split; [eauto|].
    destruct (base_fields _ _ _ E0) as (_ & _ & _ & _ & _ & _ & _ & Nx & Nz). unfold given, if_given, given.
    destruct (dict_get "ode"%string kw) as [ode|] eqn:Eo; [|discriminate]. pose proof (is_column_iff ode (kw_get _ _ _ Hk Eo)) as HC.
    destruct (is_column ode); [|discriminate]. destruct (Nat.eqb_spec (numel (d_x d0)) (numel ode)) as [En|]; [|discriminate]. cbn [vassert rbind] in H.
    split; [exists ode; split; [reflexivity|split; [now apply HC|congruence]]|].
    destruct (dict_get "alg"%string kw) as [alg|] eqn:Ea; [right|now left]. pose proof (is_column_iff alg (kw_get _ _ _ Hk Ea)) as HC'.
    destruct (is_column alg); [|discriminate]. destruct (Nat.eqb_spec (numel (d_z d0)) (numel alg)) as [En'|]; [|discriminate].
    exists alg. split; [reflexivity|split; [now apply HC'|congruence]].
  - intros ([d0 E0] & (ode & Eo & Ho & Hn) & Ha). destruct (base_fields _ _ _ E0) as (_ & _ & _ & _ & _ & _ & _ & Nx & Nz). rewrite E0, Eo. cbn [rbind].
    apply (is_column_iff ode (kw_get _ _ _ Hk Eo)) in Ho. rewrite Ho, Nx, Hn, Nat.eqb_refl. cbn [vassert rbind].
    destruct Ha as [->|(alg & Ea & Ha & Hm)]; [simpl; eauto|]. rewrite Ea. apply (is_column_iff alg (kw_get _ _ _ Hk Ea)) in Ha. rewrite Ha, Nz, Hm, Nat.eqb_refl. simpl. eauto.
Qed.
Theorem impl_iff tid kw : KwOk kw -> (exists d, impl_init tid kw = Ok d) <-> ImplOk kw.
Proof.
  intros Hk. unfold impl_init, ImplOk. rewrite <- (base_iff tid kw Hk). split.
  - intros [d H]. destruct (dae_init tid kw) as [d0|] eqn:E0; [|discriminate]. cbn [rbind] in H. split; [eauto|].
    destruct (base_fields _ _ _ E0) as (_ & _ & _ & _ & _ & _ & _ & Nx & Nz). unfold given.
    destruct (dict_get "xdot"%string kw) as [xd|] eqn:Eo; [|discriminate]. pose proof (is_column_iff xd (kw_get _ _ _ Hk Eo)) as HC.
    destruct (is_column xd); [|discriminate]. destruct (Nat.eqb_spec (numel (d_x d0)) (numel xd)) as [En|]; [|discriminate]. cbn [vassert rbind] in H.
    split; [exists xd; split; [reflexivity|split; [now apply HC|congruence]]|].
    destruct (dict_get "dae"%string kw) as [e|] eqn:Ea; [|discriminate]. pose proof (is_column_iff e (kw_get _ _ _ Hk Ea)) as HC'.
    destruct (is_column e); [|discriminate]. destruct (Nat.eqb_spec (numel (d_z d0) + numel xd) (numel e)) as [En'|]; [|discriminate].
    exists e. split; [reflexivity|split; [now apply HC'|lia]].
  - intros ([d0 E0] & (xd & Eo & Ho & Hn) & (e & Ea & Ha & Hm)). destruct (base_fields _ _ _ E0) as (_ & _ & _ & _ & _ & _ & _ & Nx & Nz). rewrite E0, Eo. cbn [rbind].
    apply (is_column_iff xd (kw_get _ _ _ Hk Eo)) in Ho. rewrite Ho, Nx, Hn, Nat.eqb_refl. cbn [vassert rbind].
    rewrite Ea. apply (is_column_iff e (kw_get _ _ _ Hk Ea)) in Ha. rewrite Ha, Nz, Hm, Nat.add_comm, Nat.eqb_refl. simpl. eauto.
Qed.

(** A structure with one element is not accepted for [t], although [is_valid_input] is
    asked first and structures are accepted for the other inputs. *)
Theorem base_struct_t tid kw t : KwOk kw -> BaseAsks kw -> dict_get "t"%string kw = Some t -> ~ matrix t -> dae_init tid kw = Err EAttr.
Proof.
  intros Hk HA Et Hm.
  assert (N : forall d, dae_init tid kw <> Ok d).
  { intros d Hd. destruct (proj1 (base_iff tid kw Hk) (ex_intro _ d Hd)) as (_ & _ & _ & _ & [H|(t' & E & H & _)] & _); congruence. }
  destruct HA as (Hx & Hz & Hu & Hp & Ht & _). revert N. unfold dae_init. destruct Hx as (x & Ex & Cx & Sx). rewrite Ex.
  apply (is_column_iff x (kw_get _ _ _ Hk Ex)) in Cx. rewrite Cx, Sx. cbn [vassert rbind].
  apply (col_input_iff "z" kw Hk) in Hz as (z & ->). apply (col_input_iff "u" kw Hk) in Hu as (u & ->). apply any_input_iff in Hp as (p & ->). cbn [rbind].
  rewrite Et. destruct Ht as [H|(t' & E & St & _)]; [congruence|]. rewrite Et in E. injection E as <-. rewrite St. cbn [vassert rbind].
  unfold is_scalar, matrix in *. destruct (mo_str t); [reflexivity|congruence].
Qed.

(** What is stored. *)
Theorem semi_fields tid kw d : semi_init tid kw = Ok d ->
  exists ode alg, d_kind d = DSemi ode alg /\ given "ode" kw (eq ode) /\ stored_as alg "alg" kw /\
  given "x" kw (eq (d_x d)) /\ stored_as (d_z d) "z" kw /\ stored_as (d_u d) "u" kw /\ stored_as (d_p d) "p" kw /\
  stored_as (d_quad d) "quad" kw /\ stored_as (d_tdp d) "tdp" kw /\
  (match dict_get "t"%string kw with Some t => d_t d = t | None => dm_shape (mo_mat (d_t d)) = (1, 1) end).
Proof.
  unfold semi_init. destruct (dae_init tid kw) as [d0|] eqn:E0; [|discriminate]. cbn [rbind]. destruct (base_fields _ _ _ E0) as (F1 & F2 & F3 & F4 & F5 & F6 & F7 & _).
  unfold given at 1. destruct (dict_get "ode"%string kw) as [ode|] eqn:Eo; [|discriminate]. intros H. destruct (is_column ode); [|discriminate].
  destruct (numel (d_x d0) =? numel ode); [|discriminate]. cbn [vassert rbind] in H.
  destruct (match dict_get "alg"%string kw with Some _ => _ | None => _ end) as [alg|] eqn:Ea; [|discriminate]. injection H as <-. exists ode, alg. simpl.
  split; [reflexivity|]. split; [eauto|]. split; [|auto 10]. unfold stored_as. destruct (dict_get "alg"%string kw) as [a|]; [|injection Ea as <-; reflexivity].
  destruct (is_column a); [|discriminate]. destruct (numel (d_z d0) =? numel a); [|discriminate]. now injection Ea.
Qed.

(** Refused arguments raise ValueError, missing ones KeyError, a structure for t AttributeError. *)
Lemma base_err tid kw e : dae_init tid kw = Err e -> e = EValue \/ (e = EKey /\ dict_get "x"%string kw = None) \/ (e = EAttr /\ given "t" kw (fun t => ~ matrix t)).
Proof.
  unfold dae_init. destruct (dict_get "x"%string kw) as [x|]; [|intros [= <-]; auto].
  assert (V : forall b x, vassert b = Err x -> x = EValue) by (intros [|] y; simpl; congruence).
  assert (C : forall k x, col_input k kw = Err x -> x = EValue).
  { intros k y. unfold col_input. destruct (dict_get k kw) as [q|]; [|discriminate]. destruct (is_column q); [|simpl; congruence]. destruct (mo_valid q); simpl; congruence. }
  assert (N : forall k x, any_input k kw = Err x -> x = EValue).
  { intros k y. unfold any_input. destruct (dict_get k kw) as [q|]; [|discriminate]. destruct (mo_valid q); simpl; congruence. }
  intros H. destruct (vassert (is_column x)) eqn:E1; [|simpl in H; injection H as <-; eauto]. destruct (vassert (mo_valid x)) eqn:E2; [|simpl in H; injection H as <-; eauto]. cbn [rbind] in H.
  destruct (col_input "z" kw) eqn:E3; [|simpl in H; injection H as <-; eauto]. destruct (col_input "u" kw) eqn:E4; [|simpl in H; injection H as <-; eauto].
  destruct (any_input "p" kw) eqn:E5; [|simpl in H; injection H as <-; eauto]. cbn [rbind] in H.
  destruct (match dict_get "t"%string kw with Some _ => _ | None => _ end) eqn:E6.
  - cbn [rbind] in H. destruct (any_input "tdp" kw) eqn:E7; [discriminate|simpl in H; injection H as <-; eauto].
  - simpl in H. injection H as <-. destruct (dict_get "t"%string kw) as [t|] eqn:Et; [|discriminate]. destruct (vassert (mo_valid t)) eqn:E8; [|simpl in E6; injection E6 as <-; eauto].
    cbn [rbind] in E6. unfold is_scalar in E6. destruct (mo_str t) eqn:Es; [simpl in E6; injection E6 as <-; right; right; split; [reflexivity|]; exists t; split; [assumption|unfold matrix; congruence]|].
    cbn [rbind] in E6. destruct (vassert (numel t =? 1)) eqn:E9; [discriminate|simpl in E6; injection E6 as <-; eauto].
Qed.
Theorem semi_err tid kw e : semi_init tid kw = Err e ->
  e = EValue \/ (e = EKey /\ (dict_get "x"%string kw = None \/ dict_get "ode"%string kw = None)) \/ (e = EAttr /\ given "t" kw (fun t => ~ matrix t)).
Proof.
  unfold semi_init. destruct (dae_init tid kw) as [d0|e0] eqn:E0; [|intros [= <-]; destruct (base_err _ _ _ E0) as [->|[[-> H]|[-> H]]]; auto 7]. cbn [rbind].
  destruct (dict_get "ode"%string kw) as [ode|]; [|intros [= <-]; auto]. intros H. left. destruct (is_column ode); [|simpl in H; congruence].
  destruct (numel (d_x d0) =? numel ode); [|simpl in H; congruence]. cbn [vassert rbind] in H. destruct (dict_get "alg"%string kw) as [a|]; [|discriminate].
  destruct (is_column a); [|simpl in H; congruence]. destruct (numel (d_z d0) =? numel a); simpl in H; congruence.
Qed.
Theorem impl_err tid kw e : impl_init tid kw = Err e ->
  e = EValue \/ (e = EKey /\ (dict_get "x"%string kw = None \/ dict_get "xdot"%string kw = None \/ dict_get "dae"%string kw = None)) \/ (e = EAttr /\ given "t" kw (fun t => ~ matrix t)).
Proof.
  unfold impl_init. destruct (dae_init tid kw) as [d0|e0] eqn:E0; [|intros [= <-]; destruct (base_err _ _ _ E0) as [->|[[-> H]|[-> H]]]; auto 7]. cbn [rbind].
  destruct (dict_get "xdot"%string kw) as [xd|]; [|intros [= <-]; auto 7]. intros H. destruct (is_column xd); [|simpl in H; left; congruence].
  destruct (numel (d_x d0) =? numel xd); [|simpl in H; left; congruence]. cbn [vassert rbind] in H. destruct (dict_get "dae"%string kw) as [a|]; [|injection H as <-; auto 7].
  destruct (is_column a); [|simpl in H; left; congruence]. left. destruct (numel (d_z d0) + numel xd =? numel a); simpl in H; congruence.
Qed.

(** ** C41 *)
Lemma mx_minus_spec a b : DmOk a -> DmOk b -> dm_shape a = dm_shape b ->
  exists r, mx_minus a b = Ok r /\ DmOk r /\ dm_shape r = dm_shape a /\ forall p v, mx_at r p v = (mx_at a p v - mx_at b p v)%R.
Proof.
  intros Ha Hb Hs. unfold mx_minus. rewrite (proj2 (shape_eqb_eq _ _) Hs). eexists. split; [reflexivity|]. split; [apply dm_build_ok|]. split; [reflexivity|].
  intros p v. unfold mx_at at 1. rewrite dm_build_at.
  destruct ((fst p <? dm_nr a) && (snd p <? dm_nc a)) eqn:E.
  - destruct (dm_at a p) eqn:Ea, (dm_at b p) eqn:Eb; try reflexivity. unfold mx_at. rewrite Ea, Eb. unfold fn0. lra.
  - assert (Na : dm_at a p = None). { destruct (dm_at a p) eqn:Ea; [|reflexivity]. destruct (dm_at_bounds a p _ Ha Ea) as [L1 L2]. apply Nat.ltb_lt in L1, L2. rewrite L1, L2 in E. discriminate. }
    assert (Nb : dm_at b p = None). { destruct (dm_at b p) eqn:Eb; [|reflexivity]. destruct (dm_at_bounds b p _ Hb Eb) as [L1 L2].
      unfold dm_shape in Hs. injection Hs as H1 H2. rewrite <- H1 in L1. rewrite <- H2 in L2. apply Nat.ltb_lt in L1, L2. rewrite L1, L2 in E. discriminate. }
    unfold mx_at. rewrite Na, Nb. unfold fn0. lra.
Qed.
Lemma at_mx m i v : at_ m i v = mx_at (mo_mat m) (i, 0) v. Proof. reflexivity. Qed.
Lemma new_sym_at id n i v : i < n -> at_ (new_sym id n) i v = v id i 0.
Proof.
  intros Hi. unfold at_. simpl. pose proof (dense_fun_val fn0 n 1 (fun p (v : val) => v id (fst p) (snd p)) i 0 Hi (Nat.lt_0_succ 0)) as E. exact (f_equal (fun g => g v) E).
Qed.
Lemma bind_same v id k j r c : j <> id -> bind v id k j r c = v j r c.
Proof. intros H. unfold bind. now rewrite (proj2 (Nat.eqb_neq _ _) H). Qed.


Definition BaseFields (d : dae) : Prop :=
  (MoOk (d_x d) /\ column (d_x d) /\ symbolic (d_x d)) /\ (MoOk (d_z d) /\ column (d_z d) /\ symbolic (d_z d)) /\
  (MoOk (d_u d) /\ column (d_u d) /\ symbolic (d_u d)) /\ (MoOk (d_p d) /\ symbolic (d_p d)) /\
  (MoOk (d_t d) /\ matrix (d_t d) /\ symbolic (d_t d) /\ numel (d_t d) = 1) /\ MoOk (d_quad d) /\ (MoOk (d_tdp d) /\ symbolic (d_tdp d)).
Lemma base_made tid kw d : KwOk kw -> dae_init tid kw = Ok d -> BaseFields d.
Proof.
  intros Hk E0.
  assert (Cz : forall k m, col_input k kw = Ok m -> MoOk m /\ column m /\ symbolic m).
  { intros k m. unfold col_input. destruct (dict_get k kw) as [q|] eqn:Eq; [|intros [= <-]; split; [apply new_sym_ok|split; reflexivity]].
    pose proof (kw_get _ _ _ Hk Eq) as Hq. pose proof (is_column_iff q Hq). destruct (is_column q); [|discriminate]. destruct (mo_valid q) eqn:V; [|discriminate]. intros [= <-]. split; [exact Hq|split; [now apply H|exact V]]. }
  assert (Az : forall k m, any_input k kw = Ok m -> MoOk m /\ symbolic m).
  { intros k m. unfold any_input. destruct (dict_get k kw) as [q|] eqn:Eq; [|intros [= <-]; split; [apply new_sym_ok|reflexivity]].
    pose proof (kw_get _ _ _ Hk Eq) as Hq. destruct (mo_valid q) eqn:V; [|discriminate]. intros [= <-]. auto. }
  unfold dae_init in E0. destruct (dict_get "x"%string kw) as [x|] eqn:Ex; [|discriminate]. pose proof (kw_get _ _ _ Hk Ex) as Hx. pose proof (is_column_iff x Hx) as Cx.
  destruct (is_column x); [|discriminate]. destruct (mo_valid x) eqn:Vx; [|discriminate]. cbn [vassert rbind] in E0.
  destruct (col_input "z" kw) as [z|] eqn:Ez; [|discriminate]. destruct (col_input "u" kw) as [u|] eqn:Eu; [|discriminate]. destruct (any_input "p" kw) as [p|] eqn:Ep; [|discriminate]. cbn [rbind] in E0.
  destruct (match dict_get "t"%string kw with Some _ => _ | None => _ end) as [t|] eqn:Et; [|discriminate]. cbn [rbind] in E0. destruct (any_input "tdp" kw) as [tdp|] eqn:Etdp; [|discriminate].
  injection E0 as <-. unfold BaseFields. cbn [d_x d_z d_u d_p d_t d_quad d_tdp].
  split; [split; [exact Hx|split; [now apply Cx|exact Vx]]|]. split; [eauto|]. split; [eauto|]. split; [eauto|]. split.
  { destruct (dict_get "t"%string kw) as [t'|] eqn:Eq; [|injection Et as <-; split; [apply new_sym_ok|split; [|split]; reflexivity]].
    destruct (mo_valid t') eqn:V; [|discriminate]. unfold is_scalar in Et. destruct (mo_str t') eqn:Es; [discriminate|]. cbn [rbind vassert] in Et. destruct (Nat.eqb_spec (numel t') 1) as [E1|]; [|discriminate]. injection Et as <-. split; [eapply kw_get; eauto|auto]. }
  split; [|eauto]. destruct (dict_get "quad"%string kw) as [q|] eqn:Eq; [eapply kw_get; eauto|apply new_sym_ok].
Qed.
Lemma semi_made d : SemiMade d -> exists ode alg, d_kind d = DSemi ode alg /\ BaseFields d /\ MoOk ode /\ MoOk alg /\
  column ode /\ numel ode = numel (d_x d) /\ column alg /\ (numel alg = numel (d_z d) \/ numel alg = 0).
Proof.
  intros (tid & kw & Hk & H). unfold semi_init in H. destruct (dae_init tid kw) as [d0|] eqn:E0; [|discriminate]. cbn [rbind] in H.
  pose proof (base_made _ _ _ Hk E0) as HB.
  destruct (dict_get "ode"%string kw) as [ode|] eqn:Eo; [|discriminate]. pose proof (kw_get _ _ _ Hk Eo) as Ho. pose proof (is_column_iff ode Ho) as HC.
  destruct (is_column ode); [|discriminate]. destruct (Nat.eqb_spec (numel (d_x d0)) (numel ode)) as [En|]; [|discriminate]. cbn [vassert rbind] in H.
  destruct (match dict_get "alg"%string kw with Some _ => _ | None => _ end) as [alg|] eqn:Ea; [|discriminate]. injection H as <-. exists ode, alg.
  split; [reflexivity|]. split; [exact HB|]. split; [exact Ho|].
  destruct (dict_get "alg"%string kw) as [a|] eqn:Eg.
  - pose proof (kw_get _ _ _ Hk Eg) as Ha. pose proof (is_column_iff a Ha) as HC'. destruct (is_column a); [|discriminate]. destruct (Nat.eqb_spec (numel (d_z d0)) (numel a)) as [En'|]; [|discriminate].
    injection Ea as <-. split; [exact Ha|]. split; [now apply HC|]. split; [now symmetry|]. split; [now apply HC'|]. left. now symmetry.
  - injection Ea as <-. split; [apply new_sym_ok|]. split; [now apply HC|]. split; [now symmetry|]. split; [reflexivity|]. now right.
Qed.

Lemma impl_init_fields (xdot x z u p t e q tdp : mobj) tid d :
  impl_init tid [("xdot"%string, xdot); ("x"%string, x); ("z"%string, z); ("u"%string, u); ("p"%string, p);
                   ("t"%string, t); ("dae"%string, e); ("quad"%string, q); ("tdp"%string, tdp)] = Ok d ->
  d = DaeObj x z u p t q tdp (DImpl xdot e).
Proof.
  unfold impl_init, dae_init, col_input, any_input. cbn [dict_get String.eqb Ascii.eqb Bool.eqb].
  destruct (is_column x); [|discriminate]. destruct (mo_valid x); [|discriminate]. destruct (is_column z); [|discriminate]. destruct (mo_valid z); [|discriminate].
  destruct (is_column u); [|discriminate]. destruct (mo_valid u); [|discriminate]. destruct (mo_valid p); [|discriminate]. destruct (mo_valid t); [|discriminate].
  cbn [rbind vassert]. destruct (is_scalar t) as [b|]; [|discriminate]. destruct b; [|discriminate]. cbn [rbind vassert]. destruct (mo_valid tdp); [|discriminate]. cbn [rbind vassert d_x d_z]. destruct (is_column xdot); [|discriminate].
  destruct (numel x =? numel xdot); [|discriminate]. destruct (is_column e); [|discriminate]. destruct (numel z + numel xdot =? numel e); [|discriminate]. now intros [= <-].
Qed.

Lemma column_shape m : column m -> dm_shape (mo_mat m) = (numel m, 1).
Proof. unfold column, numel, dm_shape. intros ->. now rewrite Nat.mul_1_r. Qed.

(** The residual, its parts. *)
Theorem make_implicit_ok d id : SemiMade d -> forall ode alg, d_kind d = DSemi ode alg -> numel alg = numel (d_z d) ->
  exists e, make_implicit id d = Ok (DaeObj (d_x d) (d_z d) (d_u d) (d_p d) (d_t d) (d_quad d) (d_tdp d) (DImpl (new_sym id (numel (d_x d))) e)) /\
    numel e = numel (d_x d) + numel (d_z d) /\ column e /\
    (forall i v, i < numel (d_x d) -> at_ e i v = (v id i O - at_ ode i v)%R) /\
    (forall i v, i < numel (d_z d) -> at_ e (numel (d_x d) + i) v = at_ alg i v).
Proof.
  intros Hd ode alg Ek Ha. destruct (semi_made d Hd) as (ode' & alg' & Ek' & HB & Oo & Oa & Co & No & Ca & _). rewrite Ek in Ek'. injection Ek' as <- <-.
  set (n := numel (d_x d)) in *. unfold make_implicit. rewrite Ek.
  assert (SX : dm_shape (mo_mat (new_sym id n)) = (n, 1)) by reflexivity.
  pose proof (column_shape _ Co) as So. rewrite No in So. pose proof (column_shape _ Ca) as Sa. rewrite Ha in Sa.
  destruct (mx_minus_spec (mo_mat (new_sym id n)) (mo_mat ode)) as (df & Ed & Od & Sd & Vd); [apply new_sym_ok|apply Oo|now rewrite SX, So|].
  fold n. rewrite Ed. cbn [rbind]. rewrite SX in Sd. unfold dm_shape in Sd, Sa. injection Sd as D1 D2. injection Sa as A1 A2.
  destruct (vcat2_spec df (mo_mat alg)) as (e & Ee & Oe & R1 & R2 & V1 & V2); [exact Od|apply Oa|congruence|]. rewrite Ee. cbn [rbind].
  set (kw := [_; _; _; _; _; _; _; _; _]). exists (MObj e None false).
  assert (He : numel (MObj e None false) = n + numel (d_z d)) by (change (dm_nr e * dm_nc e = n + numel (d_z d)); rewrite R1, R2, D2, D1, A1; lia).
  destruct HB as ((Ox & Cx & Sx) & (Oz & Cz & Sz) & (Ou & Cu & Su) & (Op & Sp) & (Ot & Mt & St & Nt) & Oq & (Otd & Std)).
  assert (HK : KwOk kw).
  { intros k m Hin. unfold kw in Hin. simpl in Hin. destruct Hin as [[= <- <-]|[[= <- <-]|[[= <- <-]|[[= <- <-]|[[= <- <-]|[[= <- <-]|[[= <- <-]|[[= <- <-]|[[= <- <-]|[]]]]]]]]]]; auto using new_sym_ok.
    split; [exact Oe|exact I]. }
  assert (HI : ImplOk kw).
  { unfold ImplOk, BaseOk, if_given, given, size_of, kw. cbn [dict_get String.eqb Ascii.eqb Bool.eqb]. split.
    - split; [eauto|]. split; [right; eauto|]. split; [right; eauto|]. split; [right; eauto|]. split; right; eauto.
    - split; [exists (new_sym id n); split; [reflexivity|split; [reflexivity|apply numel_new]]|]. exists (MObj e None false). split; [reflexivity|]. split; [unfold column; simpl; congruence|exact He]. }
  destruct (proj2 (impl_iff 0 kw HK) HI) as [r Hr]. split; [rewrite Hr; f_equal; unfold kw in Hr; apply impl_init_fields in Hr; exact Hr|].
  split; [exact He|]. split; [unfold column; simpl; congruence|].
  assert (Vx : forall p v, mx_at df p v = (mx_at (mo_mat (new_sym id n)) p v - mx_at (mo_mat ode) p v)%R) by exact Vd.
  split; intros i v Hi; rewrite at_mx; simpl mo_mat.
  - unfold mx_at. rewrite V1 by lia. fold (mx_at df (i, 0)). rewrite Vx. rewrite <- !at_mx, new_sym_at by exact Hi. reflexivity.
  - rewrite <- D1. unfold mx_at. rewrite V2 by lia. reflexivity.
Qed.

(** The solution set. *)
Theorem make_implicit_solutions d id ode alg : SemiMade d -> d_kind d = DSemi ode alg -> numel alg = numel (d_z d) -> Indep id ode -> Indep id alg ->
  exists e, make_implicit id d = Ok (DaeObj (d_x d) (d_z d) (d_u d) (d_p d) (d_t d) (d_quad d) (d_tdp d) (DImpl (new_sym id (numel (d_x d))) e)) /\
    forall v k, (forall i, i < numel e -> at_ e i (bind v id k) = 0%R) <->
      (forall i, i < numel (d_x d) -> k i = at_ ode i v) /\ (forall i, i < numel alg -> at_ alg i v = 0%R).
Proof.
  intros Hd Ek Ha Io Ia. destruct (make_implicit_ok d id Hd ode alg Ek Ha) as (e & He & Ne & _ & V1 & V2). exists e. split; [exact He|]. intros v k.
  assert (B : bind v id k id = fun r _ => k r) by (unfold bind; now rewrite Nat.eqb_refl).
  assert (Eo : forall i, at_ ode i (bind v id k) = at_ ode i v) by (intros i; apply Io; intros; now apply bind_same).
  assert (Ea : forall i, at_ alg i (bind v id k) = at_ alg i v) by (intros i; apply Ia; intros; now apply bind_same).
  rewrite Ne, Ha. split.
  - intros H. split; intros i Hi.
    + specialize (H i (Nat.lt_lt_add_r _ _ _ Hi)). rewrite V1, B, Eo in H by exact Hi. lra.
    + assert (Hl : numel (d_x d) + i < numel (d_x d) + numel (d_z d)) by lia. specialize (H _ Hl). now rewrite V2, Ea in H by exact Hi.
  - intros [H1 H2] i Hi. destruct (Nat.lt_ge_cases i (numel (d_x d))) as [Hl|Hg].
    + rewrite V1, B, Eo by exact Hl. rewrite (H1 i Hl). lra.
    + replace i with (numel (d_x d) + (i - numel (d_x d))) by lia. rewrite V2, Ea by lia. apply H2. lia.
Qed.
Theorem make_implicit_id d id : ImplMade d -> make_implicit id d = Ok d.
Proof.
  intros (tid & kw & _ & H). unfold impl_init in H. destruct (dae_init tid kw) as [d0|]; [|discriminate]. cbn [rbind] in H. destruct (dict_get "xdot"%string kw) as [xd|]; [|discriminate].
  destruct (is_column xd); [|discriminate]. destruct (numel (d_x d0) =? numel xd); [|discriminate]. cbn [vassert rbind] in H. destruct (dict_get "dae"%string kw) as [e|]; [|discriminate].
  destruct (is_column e); [|discriminate]. destruct (numel (d_z d0) + numel xd =? numel e); [|discriminate]. injection H as <-. reflexivity.
Qed.
(** Algebraic variables without equations: accepted by the constructor, not by makeImplicit. *)
Theorem make_implicit_no_alg d id ode alg : SemiMade d -> d_kind d = DSemi ode alg -> numel alg <> numel (d_z d) -> make_implicit id d = Err EValue.
Proof.
  intros Hd Ek Ha. destruct (semi_made d Hd) as (ode' & alg' & Ek' & HB & Oo & Oa & Co & No & Ca & Na). rewrite Ek in Ek'. injection Ek' as <- <-.
  set (n := numel (d_x d)) in *. unfold make_implicit. rewrite Ek.
  assert (SX : dm_shape (mo_mat (new_sym id n)) = (n, 1)) by reflexivity.
  pose proof (column_shape _ Co) as So. rewrite No in So. pose proof (column_shape _ Ca) as Sa.
  destruct (mx_minus_spec (mo_mat (new_sym id n)) (mo_mat ode)) as (df & Ed & Od & Sd & Vd); [apply new_sym_ok|apply Oo|now rewrite SX, So|].
  fold n. rewrite Ed. cbn [rbind]. rewrite SX in Sd. unfold dm_shape in Sd, Sa. injection Sd as D1 D2. injection Sa as A1 A2.
  destruct (vcat2_spec df (mo_mat alg)) as (e & Ee & Oe & R1 & R2 & V1 & V2); [exact Od|apply Oa|congruence|]. rewrite Ee. cbn [rbind].
  destruct HB as ((Ox & Cx & Sx) & (Oz & Cz & Sz) & (Ou & Cu & Su) & (Op & Sp) & (Ot & Mt & St & Nt) & Oq & (Otd & Std)).
  unfold impl_init, dae_init, col_input, any_input. cbn [dict_get String.eqb Ascii.eqb Bool.eqb].
  apply (is_column_iff _ Ox) in Cx. apply (is_column_iff _ Oz) in Cz. apply (is_column_iff _ Ou) in Cu. unfold symbolic in *.
  assert (Ce : is_column (MObj e None false) = true) by (change ((dm_nc e =? 1) = true); rewrite R2, D2; reflexivity).
  assert (Ne : numel (MObj e None false) = n + numel alg) by (change (dm_nr e * dm_nc e = n + numel alg); rewrite R1, R2, D2, D1, A1; lia).
  assert (Cd : is_column (new_sym id n) = true) by reflexivity.
  unfold is_scalar. rewrite Cx, Sx, Cz, Sz, Cu, Su, Sp, St, Mt, Nt, Std. cbn [rbind vassert d_x d_z Nat.eqb]. rewrite Cd, numel_new. fold n. rewrite Nat.eqb_refl. cbn [vassert rbind].
  rewrite Ce, Ne. cbn [vassert rbind].
  destruct (Nat.eqb_spec (numel (d_z d) + n) (n + numel alg)); [lia|reflexivity].
Qed.

(** ** C42 *)
Lemma model_name_inj i j : model_name i = model_name j -> i = j.
Proof.
  unfold model_name. cbn [String.append]. intros [= H]. apply (f_equal NilEmpty.uint_of_string) in H. rewrite !NilEmpty.usu in H. injection H as H.
  apply (f_equal Nat.of_uint) in H. now rewrite !Unsigned.of_to in H.
Qed.
Lemma mo_item i m : MoOk m -> (let* e := entry_ [AName (model_name i)] [("expr"%string, mo_kval m)] in Ok (IOne (AEntry e))) = Ok (plain_item (model_name i, (mo_kval m, mo_mat m))).
Proof.
  intros [_ H]. unfold mo_kval. destruct (mo_str m) as [s|]; [|reflexivity]. destruct H as (_ & c & Hc & Hs). cbn. rewrite Hc. unfold plain_item, plain_entry. simpl. now rewrite Hs.
Qed.
Lemma numbered_In {B} (ms : list B) i m : In (i, m) (combine (seq 0 (length ms)) ms) <-> nth_error ms i = Some m.
Proof.
  enough (G : forall k, In (i, m) (combine (seq k (length ms)) ms) <-> k <= i /\ nth_error ms (i - k) = Some m).
  { rewrite G, Nat.sub_0_r. split; [tauto|]. split; [lia|assumption]. }
  induction ms as [|x ms IH]; intros k; simpl.
  - split; [tauto|]. intros [_ H]. destruct (i - k); discriminate.
  - rewrite IH. split.
    + intros [[= <- <-]|[H1 H2]]; [rewrite Nat.sub_diag; auto|]. split; [lia|]. replace (i - k) with (S (i - S k)) by lia. exact H2.
    + intros [H1 H2]. destruct (Nat.eq_dec i k) as [->|Hn]; [rewrite Nat.sub_diag in H2; injection H2 as ->; now left|]. right. split; [lia|].
      replace (i - k) with (S (i - S k)) in H2 by lia. exact H2.
Qed.
Lemma combine_snd {B} (ms : list B) k : map snd (combine (seq k (length ms)) ms) = ms.
Proof. revert k. induction ms as [|m ms IH]; intros k; simpl; [reflexivity|]. now rewrite IH. Qed.
Lemma combine_fst {B} (ms : list B) k : map fst (combine (seq k (length ms)) ms) = seq k (length ms).
Proof. revert k. induction ms as [|m ms IH]; intros k; simpl; [reflexivity|]. now rewrite IH. Qed.

Lemma struct_of_ok cv ms : Forall MoOk ms -> exists o m, struct_of cv ms = Ok (o, m) /\ mo_valid m = cv ms /\ ParOf ms o m.
Proof.
  intros H. rewrite Forall_forall in H. unfold struct_of.
  set (l := map (fun im => (model_name (fst im), (mo_kval (snd im), mo_mat (snd im)))) (combine (seq 0 (length ms)) ms)).
  assert (Hok : forall im, In im (combine (seq 0 (length ms)) ms) -> MoOk (snd im)).
  { intros im Hin. apply H. apply (in_map snd) in Hin. now rewrite combine_snd in Hin. }
  rewrite (rmapM_map _ (fun im => plain_item (model_name (fst im), (mo_kval (snd im), mo_mat (snd im))))) by (intros im Hin; apply mo_item; auto). cbn [rbind].
  assert (Hf : map fst l = map model_name (seq 0 (length ms))) by (unfold l; rewrite map_map; cbn [fst]; rewrite <- (map_map fst model_name), combine_fst; reflexivity).
  assert (Hnd : NoDup (map fst l)).
  { rewrite Hf. apply FinFun.Injective_map_NoDup; [intros a b; apply model_name_inj|apply seq_NoDup]. }
  assert (Hpl : forall x, In x l -> plain_ok x).
  { intros x Hx. unfold l in Hx. apply in_map_iff in Hx as (im & <- & Hin). split; [apply (Hok im Hin)|]. cbn [fst snd]. unfold mo_kval. now destruct (mo_str (snd im)). }
  destruct (plain_mx fn0 l Hnd Hpl) as (o & cat & Ho & Hw & Hc & Hent & Hkeys & Hord & Hcat & Hlen & Hg).
  pose proof (plain_cat fn0 l o cat Hnd Hpl Ho Hcat) as Ecat. unfold l in Ho. rewrite map_map in Ho. rewrite Ho. cbn [rbind]. rewrite Hcat. cbn [rbind].
  eexists _, _. split; [reflexivity|]. split; [reflexivity|]. split; [|split; [reflexivity|split; [reflexivity|split; [rewrite Hkeys; exact Hf|split]]]].
  - split; [apply dm_col_ok|]. simpl. split; [exact Hw|]. exists (so_c o). split; [exact Hc|]. now rewrite Hlen.
  - cbn [mo_mat]. f_equal. rewrite Ecat. unfold l. rewrite !flat_map_concat_map, map_map. cbn [snd]. now rewrite <- (map_map snd (fun x => dm_nz (mo_mat x))), combine_snd.
  - intros i x Hx. apply numbered_In in Hx. apply (Hg (model_name i) (mo_kval x) (mo_mat x)). unfold l. apply in_map_iff. exists (i, x). auto.
Qed.

Lemma semi_attr d a : SemiMade d -> In a par_attrs -> exists m, dae_attr d a = Ok m /\ MoOk m.
Proof.
  intros Hd Ha. destruct (semi_made d Hd) as (ode & alg & Ek & HB & Oo & Oa & _). destruct HB as ((Ox & _) & (Oz & _) & (Ou & _) & (Op & _) & _ & Oq & _).
  unfold par_attrs in Ha. simpl in Ha. unfold dae_attr. rewrite Ek. destruct Ha as [<-|[<-|[<-|[<-|[<-|[<-|[<-|[]]]]]]]]; cbn [String.eqb Ascii.eqb Bool.eqb]; eauto.
Qed.
Lemma semi_attrs ds a : Forall SemiMade ds -> In a par_attrs -> exists ms, rmapM (fun m => dae_attr m a) ds = Ok ms /\ Forall MoOk ms /\
  length ms = length ds /\ (forall i d, nth_error ds i = Some d -> exists m, nth_error ms i = Some m /\ dae_attr d a = Ok m).
Proof.
  intros H Ha. induction H as [|d ds Hd Hds IH].
  - exists []. split; [reflexivity|]. split; [constructor|]. split; [reflexivity|]. intros [|i]; discriminate.
  - destruct IH as (ms & E & Hm & Hl & Hi). destruct (semi_attr d a Hd Ha) as (m & Em & Om). exists (m :: ms). simpl. rewrite Em, E. cbn [rbind].
    split; [reflexivity|]. split; [now constructor|]. split; [now f_equal|]. intros [|i] d' Hd'; [injection Hd' as <-; exists m; auto|exact (Hi i d' Hd')].
Qed.


Theorem parallel_spec cv tid ds : Forall SemiMade ds ->
  exists xs zs us ps qs ox oz ou op oq oo oa mx mz mu mp mq,
    Members ds "x" xs /\ Members ds "z" zs /\ Members ds "u" us /\ Members ds "p" ps /\ Members ds "quad" qs /\
    ParOf xs ox mx /\ ParOf zs oz mz /\ ParOf us ou mu /\ ParOf ps op mp /\ ParOf qs oq mq /\
    parallel cv tid ds =
      (if cv xs && cv zs && cv us && cv ps
       then Ok (DaeObj mx mz mu mp (new_sym tid 1) mq (new_sym 0 0) DBase,
                [("x", ox); ("z", oz); ("u", ou); ("p", op); ("ode", oo); ("alg", oa); ("quad", oq)]%string)
       else Err EValue).
Proof.
  intros H.
  destruct (semi_attrs ds "x" H) as (xs & Ex & Ox & Lx & Ix); [simpl; tauto|]. destruct (semi_attrs ds "z" H) as (zs & Ez & Oz & Lz & Iz); [simpl; tauto|].
  destruct (semi_attrs ds "u" H) as (us & Eu & Ou & Lu & Iu); [simpl; tauto|]. destruct (semi_attrs ds "p" H) as (ps & Ep & Op & Lp & Ip); [simpl; tauto|].
  destruct (semi_attrs ds "ode" H) as (os & Eo & Oo & _); [simpl; tauto|]. destruct (semi_attrs ds "alg" H) as (as_ & Ea & Oa & _); [simpl; tauto|].
  destruct (semi_attrs ds "quad" H) as (qs & Eq & Oq & Lq & Iq); [simpl; tauto|].
  destruct (struct_of_ok cv xs Ox) as (ox & mx & Sx & Vx & Px). destruct (struct_of_ok cv zs Oz) as (oz & mz & Sz & Vz & Pz). destruct (struct_of_ok cv us Ou) as (ou & mu & Su & Vu & Pu).
  destruct (struct_of_ok cv ps Op) as (op & mp & Sp & Vp & Pp). destruct (struct_of_ok cv os Oo) as (oo & mo & So & _ & _). destruct (struct_of_ok cv as_ Oa) as (oa & ma & Sa & _ & _).
  destruct (struct_of_ok cv qs Oq) as (oq & mq & Sq & Vq & Pq).
  exists xs, zs, us, ps, qs, ox, oz, ou, op, oq, oo, oa, mx, mz, mu, mp, mq.
  do 5 (split; [split; assumption|]). do 5 (split; [assumption|]).
  unfold parallel, par_attrs. cbn [rmapM]. rewrite Ex. cbn [rbind]. rewrite Sx. cbn [rbind]. rewrite Ez. cbn [rbind]. rewrite Sz. cbn [rbind]. rewrite Eu. cbn [rbind]. rewrite Su. cbn [rbind].
  rewrite Ep. cbn [rbind]. rewrite Sp. cbn [rbind]. rewrite Eo. cbn [rbind]. rewrite So. cbn [rbind]. rewrite Ea. cbn [rbind]. rewrite Sa. cbn [rbind]. rewrite Eq. cbn [rbind]. rewrite Sq. cbn [rbind map fst snd].
  unfold dae_init, col_input, any_input. cbn [dict_get String.eqb Ascii.eqb Bool.eqb].
  assert (C : forall ms o m, ParOf ms o m -> is_column m = true) by (intros ms o m (O & Cm & _); now apply is_column_iff).
  rewrite (C _ _ _ Px), (C _ _ _ Pz), (C _ _ _ Pu), Vx, Vz, Vu, Vp. cbn [vassert rbind].
  destruct (cv xs); [|reflexivity]. destruct (cv zs); [|reflexivity]. destruct (cv us); [|reflexivity]. destruct (cv ps); reflexivity.
Qed.

(** The right-hand sides are lost. *)
Theorem parallel_no_dynamics cv tid ds d os : parallel cv tid ds = Ok (d, os) ->
  dae_attr d "ode" = Err EAttr /\ dae_attr d "alg" = Err EAttr /\ make_implicit 0 d = Err EAttr.
Proof.
  intros H. unfold parallel in H. destruct (rmapM _ par_attrs) as [l|]; [|discriminate]. cbn [rbind] in H. destruct (dae_init tid _) as [r|] eqn:E; [|discriminate]. cbn [rbind] in H. injection H as <- <-.
  assert (K : d_kind r = DBase).
  { revert E. generalize (map (fun x : string * (sobj fn * mobj) => (fst x, snd (snd x))) l) as kw. intros kw E. unfold dae_init in E. destruct (dict_get "x"%string kw) as [x|]; [|discriminate].
    destruct (vassert (is_column x)); [|discriminate]. destruct (vassert (mo_valid x)); [|discriminate]. cbn [rbind] in E. destruct (col_input "z" kw); [|discriminate]. destruct (col_input "u" kw); [|discriminate].
    destruct (any_input "p" kw); [|discriminate]. cbn [rbind] in E. destruct (match dict_get "t"%string kw with Some _ => _ | None => _ end); [|discriminate]. cbn [rbind] in E.
    destruct (any_input "tdp" kw); [|discriminate]. injection E as <-. reflexivity. }
  unfold dae_attr, make_implicit. rewrite K. auto.
Qed.
(** Implicit models cannot be put in parallel. *)
Theorem parallel_implicit cv tid ds d : In d ds -> ImplMade d -> forall r, parallel cv tid ds <> Ok r.
Proof.
  intros Hin Hd r H. unfold parallel in H. destruct (rmapM _ par_attrs) as [l|] eqn:E; [|discriminate]. clear H.
  assert (N : dae_attr d "ode" = Err EAttr).
  { destruct Hd as (t0 & kw & _ & H). unfold impl_init in H. destruct (dae_init t0 kw) as [d0|]; [|discriminate]. cbn [rbind] in H. destruct (dict_get "xdot"%string kw) as [xd|]; [|discriminate].
    destruct (is_column xd); [|discriminate]. destruct (numel (d_x d0) =? numel xd); [|discriminate]. cbn [vassert rbind] in H. destruct (dict_get "dae"%string kw) as [e|]; [|discriminate].
    destruct (is_column e); [|discriminate]. destruct (numel (d_z d0) + numel xd =? numel e); [|discriminate]. injection H as <-. reflexivity. }
  assert (G : forall ms, rmapM (fun m => dae_attr m "ode"%string) ds <> Ok ms).
  { clear E. induction ds as [|d' ds IH]; [destruct Hin|]. intros ms E. simpl in E. destruct Hin as [->|Hin].
    - rewrite N in E. discriminate.
    - destruct (dae_attr d' "ode"); [|discriminate]. cbn [rbind] in E. destruct (rmapM _ ds) as [q|]; [|discriminate]. exact (IH Hin q eq_refl). }
  assert (R : forall B C (f : B -> res C) q a, In a q -> forall w, rmapM f q = Ok w -> exists c, f a = Ok c).
  { intros B C f q a. induction q as [|b q IH]; simpl; [tauto|]. intros Ha w Hw. destruct (f b) as [c|] eqn:Ef; [|discriminate]. destruct Ha as [->|Ha]; [eauto|]. cbn [rbind] in Hw.
    destruct (rmapM f q) as [w'|]; [|discriminate]. eapply IH; eauto. }
  destruct (R _ _ _ par_attrs "ode"%string ltac:(simpl; tauto) l E) as [c Hc]. cbv beta in Hc. destruct (rmapM (fun m => dae_attr m "ode"%string) ds) as [ms|] eqn:Em; [exact (G ms eq_refl)|]. discriminate.
Qed.
