(** Which matrices [repeated] and [squared_repeated] accept (C119). *)
From Verif Require Import PyBase IndexModel DMModel DMProofs StructModel StructSpec StructProofs PowerModel PowerSpec EntryModel StructsModel EntrySpec EntryProofs StructsSpec
  StructsThms5 StructsThms7 StructsThms9 SqRepThms ViewThms.
Open Scope list_scope.
Open Scope nat_scope.

Section V.
Context {T : Type} (zero : T).

(** A dense matrix of any shape. *)
Let full (r k : nat) : dm T := DM (sp_dense r k) (repeat zero (r * k)).
Local Lemma full_ok r k : DmOk (full r k).
Proof. split; [apply SpOk_dense|]. cbn [full dm_nz dm_sp]. now rewrite repeat_length, nnz_dense. Qed.
Local Lemma full_dense r k : sp_is_dense (dm_sp (full r k)) = true.
Proof. unfold sp_is_dense. cbn [full dm_sp]. rewrite nnz_dense. apply Nat.eqb_refl. Qed.

Lemma repeated_sparse s c (a : dm T) : Wf s -> casadi_structure s = Ok c -> dm_nr a = cs_size c -> sp_is_dense (dm_sp a) = false -> repeated_ s c a = Err EAssert.
Proof.
  intros Hw Hc Hr Hd.
  destruct (repeated_ok s c (full (cs_size c) (dm_nc a)) Hw Hc (full_ok _ _) eq_refl (full_dense _ _)) as (vw & ct & et & E & _).
  unfold repeated_ in *. rewrite Hr. rewrite Nat.eqb_refl. cbn [negb]. change (dm_nr (full (cs_size c) (dm_nc a))) with (cs_size c) in E. change (dm_nc (full (cs_size c) (dm_nc a))) with (dm_nc a) in E.
  rewrite Nat.eqb_refl in E. cbn [negb] in E. destruct (t_struct _) as [ct'|]; [|discriminate]. cbn [rbind]. unfold dense_elems. now rewrite Hd.
Qed.
Lemma squared_repeated_sparse s c (a : dm T) N : Wf s -> casadi_structure s = Ok c -> cs_size c <> 0 -> dm_shape a = (cs_size c, N * cs_size c) -> sp_is_dense (dm_sp a) = false ->
  squared_repeated_ s c a = Err EAssert.
Proof.
  intros Hw Hc H0 Hs Hd. unfold dm_shape in Hs. injection Hs as Hr Hk.
  destruct (squared_repeated_ok s c (full (cs_size c) (N * cs_size c)) N Hw Hc (full_ok _ _) H0 eq_refl (full_dense _ _)) as (vw & ct & E & _).
  unfold squared_repeated_ in *. rewrite Hr, Hk. change (dm_nr (full (cs_size c) (N * cs_size c))) with (cs_size c) in E. change (dm_nc (full (cs_size c) (N * cs_size c))) with (N * cs_size c) in E.
  rewrite Nat.eqb_refl in E |- *. cbn [negb] in E |- *. destruct (cs_size c =? 0); [discriminate|]. destruct (negb _); [discriminate|].
  destruct (t_struct _) as [ct'|]; [|discriminate]. cbn [rbind]. unfold dense_elems. now rewrite Hd.
Qed.

(** [repeated]: the right number of rows and no structural zeros; the number of columns is free. *)
Theorem repeated_accepts s c (a : dm T) : Wf s -> casadi_structure s = Ok c -> DmOk a ->
  ((exists vw, repeated_ s c a = Ok vw) <-> dm_sp a = sp_dense (cs_size c) (dm_nc a)) /\
  (repeated_ s c a = Err EException <-> dm_nr a <> cs_size c) /\
  (repeated_ s c a = Err EAssert <-> dm_nr a = cs_size c /\ dm_sp a <> sp_dense (cs_size c) (dm_nc a)).
Proof.
  intros Hw Hc Ha. destruct (Nat.eq_dec (dm_nr a) (cs_size c)) as [Hr|Hr].
  - pose proof (dense_iff_sp a (cs_size c) (dm_nc a) Ha) as D. unfold dm_shape in D. rewrite Hr in D. specialize (D eq_refl). destruct (sp_is_dense (dm_sp a)) eqn:Hd.
    + destruct (repeated_ok s c a Hw Hc Ha Hr Hd) as (vw & _ & _ & E & _). rewrite E. pose proof (proj1 D eq_refl) as D1. repeat match goal with |- _ /\ _ => split | |- _ <-> _ => split end; intros X; try discriminate; try contradiction; try tauto; try (destruct X; first [discriminate|contradiction]); try congruence; try (exists vw; reflexivity).
    + rewrite (repeated_sparse s c a Hw Hc Hr Hd). assert (D1 : dm_sp a <> sp_dense (cs_size c) (dm_nc a)) by (intros X; apply D in X; discriminate).
      repeat match goal with |- _ /\ _ => split | |- _ <-> _ => split end; intros X; try discriminate; try contradiction; try tauto; try (destruct X; first [discriminate|contradiction]); try congruence.
  - rewrite (repeated_bad_rows s c a Hr). assert (D1 : dm_sp a <> sp_dense (cs_size c) (dm_nc a)) by (intros X; apply Hr; unfold dm_nr; rewrite X; reflexivity).
    repeat match goal with |- _ /\ _ => split | |- _ <-> _ => split end; intros X; try discriminate; try contradiction; try tauto; try (destruct X; first [discriminate|contradiction]); try congruence.
Qed.
(** The default argument 0 of [repeated] serves a structure of size 1 only. *)
Theorem repeated_default s c (x : T) : Wf s -> casadi_structure s = Ok c -> (exists vw, repeated_ s c (dm_scalar x) = Ok vw) <-> cs_size c = 1.
Proof.
  intros Hw Hc. assert (Ho : DmOk (dm_scalar x)) by (split; [apply SpOk_dense|reflexivity]).
  rewrite (proj1 (repeated_accepts s c (dm_scalar x) Hw Hc Ho)). cbn. split; [intros H; injection H; congruence|intros ->; reflexivity].
Qed.

(** [squared_repeated]: square blocks side by side; a structure of size 0 never has a view, because the
    number of columns is taken modulo its size. *)
Theorem squared_repeated_accepts s c (a : dm T) : Wf s -> casadi_structure s = Ok c -> DmOk a ->
  ((exists vw, squared_repeated_ s c a = Ok vw) <-> cs_size c <> 0 /\ exists N, dm_sp a = sp_dense (cs_size c) (N * cs_size c)) /\
  (squared_repeated_ s c a = Err EException <-> dm_nr a <> cs_size c \/ (cs_size c <> 0 /\ ~ Nat.divide (cs_size c) (dm_nc a))) /\
  (squared_repeated_ s c a = Err EZeroDiv <-> dm_nr a = 0 /\ cs_size c = 0) /\
  (squared_repeated_ s c a = Err EAssert <-> cs_size c <> 0 /\ exists N, dm_shape a = (cs_size c, N * cs_size c) /\ dm_sp a <> sp_dense (cs_size c) (N * cs_size c)).
Proof.
  intros Hw Hc Ha.
  assert (Sh : forall N, dm_sp a = sp_dense (cs_size c) (N * cs_size c) -> dm_nr a = cs_size c /\ dm_nc a = N * cs_size c) by (intros N X; unfold dm_nr, dm_nc; rewrite X; split; reflexivity).
  assert (Ss : forall N, dm_shape a = (cs_size c, N * cs_size c) -> dm_nr a = cs_size c /\ dm_nc a = N * cs_size c) by (unfold dm_shape; intros N X; injection X; auto).
  destruct (Nat.eq_dec (dm_nr a) (cs_size c)) as [Hr|Hr].
  - destruct (Nat.eq_dec (cs_size c) 0) as [H0|H0].
    + assert (E : squared_repeated_ s c a = Err EZeroDiv) by (unfold squared_repeated_; rewrite Hr, H0; reflexivity). rewrite E.
      split; [split; [intros (? & ?); discriminate|tauto]|]. split; [split; [discriminate|tauto]|]. split; [split; [split; congruence|reflexivity]|]. split; [discriminate|tauto].
    + destruct (Nat.eq_dec (dm_nc a mod cs_size c) 0) as [Hm|Hm].
      * assert (Hk : exists N, dm_nc a = N * cs_size c) by (apply Nat.mod_divide in Hm; [exact Hm|exact H0]). destruct Hk as (N & Hk).
        assert (Hs : dm_shape a = (cs_size c, N * cs_size c)) by (unfold dm_shape; congruence).
        pose proof (dense_iff_sp a _ _ Ha Hs) as D. assert (Hu : forall M, dm_nc a = M * cs_size c -> M = N) by (intros M X; rewrite Hk in X; nia).
        destruct (sp_is_dense (dm_sp a)) eqn:Hd.
        -- destruct (squared_repeated_ok s c a N Hw Hc Ha H0 Hs Hd) as (vw & _ & E & _). rewrite E. pose proof (proj1 D eq_refl) as D1.
           split; [split; [eauto|eauto]|]. split; [split; [discriminate|intros [X|[_ X]]; [contradiction|exfalso; apply X; exists N; exact Hk]]|]. split; [split; [discriminate|intros [_ X]; contradiction]|].
           split; [discriminate|]. intros (_ & M & X & Y). destruct (Ss M X) as [_ X2]. rewrite (Hu M X2) in Y. contradiction.
        -- rewrite (squared_repeated_sparse s c a N Hw Hc H0 Hs Hd). assert (D1 : dm_sp a <> sp_dense (cs_size c) (N * cs_size c)) by (intros X; apply D in X; discriminate).
           split; [split; [intros (? & ?); discriminate|intros (_ & M & X); destruct (Sh M X) as [_ X2]; rewrite (Hu M X2) in X; contradiction]|].
           split; [split; [discriminate|intros [X|[_ X]]; [contradiction|exfalso; apply X; exists N; exact Hk]]|]. split; [split; [discriminate|intros [_ X]; contradiction]|].
           split; [intros _; split; [exact H0|]; exists N; auto|reflexivity].
      * assert (Hn : ~ Nat.divide (cs_size c) (dm_nc a)) by (intros X; apply Nat.mod_divide in X; [contradiction|exact H0]).
        rewrite (squared_repeated_bad s c a) by auto.
        split; [split; [intros (? & ?); discriminate|intros (_ & M & X); destruct (Sh M X) as [_ X2]; exfalso; apply Hn; exists M; exact X2]|].
        split; [split; [auto|reflexivity]|]. split; [split; [discriminate|intros [_ X]; contradiction]|].
        split; [discriminate|]. intros (_ & M & X & _). destruct (Ss M X) as [_ X2]. exfalso. apply Hn. exists M. exact X2.
  - rewrite (squared_repeated_bad s c a) by auto.
    split; [split; [intros (? & ?); discriminate|intros (_ & M & X); destruct (Sh M X); contradiction]|]. split; [split; auto|].
    split; [split; [discriminate|intros [X Y]; congruence]|]. split; [discriminate|]. intros (_ & M & X & _). destruct (Ss M X). contradiction.
Qed.
(** [product] and [squared]: how the matrices that are not accepted fail. *)
Theorem product_errors s c s2 c2 (a : dm T) : Wf s -> Wf s2 -> casadi_structure s = Ok c -> casadi_structure s2 = Ok c2 -> DmOk a ->
  let n := cs_size c in let m := cs_size c2 in
  (product_ s c s2 c2 a = Err EException <-> dm_shape a <> (n, m) /\ (dm_shape a = (1, 1) -> n = 1)) /\
  (product_ s c s2 c2 a = Err EAssert <->
    (dm_shape a = (n, m) /\ dm_sp a <> sp_dense n m) \/ (dm_shape a = (1, 1) /\ n <> 1 /\ dm_nz a = [] /\ n * m <> 0)).
Proof.
  intros Hw Hw2 Hc Hc2 Ha n m.
  destruct (product_ok s c s2 c2 (full n m) Hw Hw2 Hc Hc2 eq_refl) as (vf & Ef).
  assert (R : forall b : dm T, dm_shape b = (n, m) -> sp_is_dense (dm_sp b) = false -> product_ s c s2 c2 b = Err EAssert).
  { intros b Sb Db. unfold product_ in *. fold n m in Ef |- *. rewrite (fill_not_needed (full n m) n m eq_refl) in Ef. rewrite (fill_not_needed b _ _ Sb). unfold dm_shape in Sb. injection Sb as E1 E2. rewrite E1, E2. change (dm_nr (full n m)) with n in Ef. change (dm_nc (full n m)) with m in Ef.
    rewrite !Nat.eqb_refl in Ef |- *. cbn [andb negb] in Ef |- *. destruct (t_struct _) as [ct|]; [|discriminate]. cbn [rbind]. unfold dense_elems. now rewrite Db. }
  pose proof (product_accepts s c s2 c2 a Hw Hw2 Hc Hc2 Ha) as A. fold n m in A.
  assert (P : forall p q : nat * nat, {p = q} + {p <> q}) by (decide equality; apply Nat.eq_dec).
  destruct (P (dm_shape a) (n, m)) as [S|S].
  - destruct (sp_is_dense (dm_sp a)) eqn:D.
    + pose proof (proj1 (dense_iff_sp a n m Ha S) D) as D1. destruct (proj2 A (or_introl D1)) as (vw & E). rewrite E.
      split; (split; [discriminate|]); [tauto|]. intros [[_ X]|(X & Y & _)]; [contradiction|]. rewrite S in X. injection X as X _. contradiction.
    + assert (D1 : dm_sp a <> sp_dense n m) by (intros X; apply (dense_iff_sp a n m Ha S) in X; congruence). rewrite (R a S D).
      split; split; try discriminate; tauto.
  - destruct (P (dm_shape a) (1, 1)) as [S1|S1].
    + destruct (Nat.eq_dec n 1) as [N1|N1].
      * rewrite (product_bad_shape s c s2 c2 a S) by auto. split; split; try discriminate; try tauto; auto.
      * destruct (dm_nz a) as [|x l] eqn:Z.
        -- destruct (Nat.eq_dec (n * m) 0) as [M0|M0].
           ++ destruct (proj2 A) as (vw & E); [right; tauto|]. rewrite E. split; split; try discriminate; tauto.
           ++ assert (E : product_ s c s2 c2 a = Err EAssert).
              { rewrite <- (R (DM (Spy n m []) []) eq_refl).
                - unfold product_. fold n m. rewrite (fill_not_needed (DM (Spy n m []) []) n m eq_refl). unfold dm_shape in S1. injection S1 as E1 E2. unfold dm_is_scalar. rewrite E1, E2. fold n m.
                  destruct (Nat.eqb_spec n 1); [contradiction|]. cbn [Nat.eqb andb negb]. unfold fill_scalar. rewrite Z. reflexivity.
                - unfold sp_is_dense, sp_nnz. cbn [dm_sp sp_pat length sp_nr sp_nc]. apply Nat.eqb_neq. auto. }
              rewrite E. split; split; try discriminate; try tauto; auto.
        -- destruct (proj2 A) as (vw & E); [right; split; [exact S1|split; [exact N1|left; discriminate]]|]. rewrite E. split; split; try discriminate; try tauto. intros [[X _]|(_ & _ & X & _)]; [contradiction|discriminate].
    + rewrite (product_bad_shape s c s2 c2 a S) by (intros X; contradiction). split; split; try discriminate; tauto.
Qed.
End V.

(** A structure of size 2 with matrices of 2 x 3 and 2 x 4, one of them sparse. *)
Example view_accept_ex :
  let s := mkStruct [mkEntry "x" [] None (sp_dense 2 1) false None None]%string [OName "x"%string] in
  exists c, casadi_structure s = Ok c /\
    (exists v, repeated_ s c (DM (sp_dense 2 3) [1; 2; 3; 4; 5; 6]) = Ok v) /\
    repeated_ s c (DM (sp_dense 3 2) [1; 2; 3; 4; 5; 6]) = Err EException /\
    repeated_ s c (DM (Spy 2 3 [(0, 0); (1, 2)]) [1; 2]) = Err EAssert /\
    repeated_ s c (dm_scalar 0) = Err EException /\
    (exists v, squared_repeated_ s c (DM (sp_dense 2 4) [1; 2; 3; 4; 5; 6; 7; 8]) = Ok v) /\
    squared_repeated_ s c (DM (sp_dense 2 3) [1; 2; 3; 4; 5; 6]) = Err EException /\
    squared_repeated_ s c (DM (Spy 2 4 [(0, 0); (1, 2)]) [1; 2]) = Err EAssert.
Proof. cbv zeta. eexists. split; [reflexivity|]. repeat split; try (eexists; vm_compute; reflexivity); vm_compute; reflexivity. Qed.
(** A structure without elements: [repeated] serves it, [squared_repeated] divides by zero. *)
Example view_empty_ex :
  let s := mkStruct [mkEntry "x" [] None (sp_dense 0 1) false None None]%string [OName "x"%string] in
  exists c, casadi_structure s = Ok c /\ cs_size c = 0 /\
    (exists v, repeated_ s c (DM (sp_dense 0 3) (@nil nat)) = Ok v) /\
    squared_repeated_ s c (DM (sp_dense 0 0) (@nil nat)) = Err EZeroDiv.
Proof. cbv zeta. eexists. split; [reflexivity|]. split; [reflexivity|]. split; [eexists|]; vm_compute; reflexivity. Qed.
(** A sparse matrix and a structurally zero scalar fail the assertion. *)
Example view_sparse_ex :
  let s := mkStruct [mkEntry "x" [] None (sp_dense 2 1) false None None]%string [OName "x"%string] in
  exists c, casadi_structure s = Ok c /\
    squared_ s c (DM (Spy 2 2 [(0, 0); (1, 1)]) [1; 2]) = Err EAssert /\ squared_ s c (DM (Spy 1 1 []) (@nil nat)) = Err EAssert /\
    squared_ s c (DM (sp_dense 2 1) [1; 2]) = Err EException.
Proof. cbv zeta. eexists. split; [reflexivity|]. repeat split; vm_compute; reflexivity. Qed.
