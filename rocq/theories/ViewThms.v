(** Which matrices the views of structures accept (C29-C31). *)
From Verif Require Import PyBase IndexModel DMModel DMProofs StructModel StructSpec StructProofs PowerModel PowerSpec EntryModel StructsModel EntrySpec EntryProofs StructsSpec StructsThms5 StructsThms7.
Open Scope list_scope.
Open Scope nat_scope.

Section V.
Context {T : Type} .

Lemma dense_iff_sp (a : dm T) r k : DmOk a -> dm_shape a = (r, k) -> sp_is_dense (dm_sp a) = true <-> dm_sp a = sp_dense r k.
Proof.
  intros [Hok _] Hs. unfold dm_shape, dm_nr, dm_nc in Hs. injection Hs as E1 E2. split.
  - intros H. rewrite (sp_dense_shape (dm_sp a) Hok H). now rewrite E1, E2.
  - intros ->. unfold sp_is_dense. rewrite nnz_dense. simpl. apply Nat.eqb_refl.
Qed.

(** A view of products: a dense matrix of the right shape, or a scalar that is spread. *)
Theorem product_accepts s c s2 c2 (a : dm T) : Wf s -> Wf s2 -> casadi_structure s = Ok c -> casadi_structure s2 = Ok c2 -> DmOk a ->
  (exists vw, product_ s c s2 c2 a = Ok vw) <->
  dm_sp a = sp_dense (cs_size c) (cs_size c2) \/
  (dm_shape a = (1, 1) /\ cs_size c <> 1 /\ (dm_nz a <> [] \/ cs_size c * cs_size c2 = 0)).
Proof.
  intros Hw Hw2 Hc Hc2 Ho. split.
  - intros (vw & H). unfold product_ in H.
    destruct (dm_is_scalar a && negb (cs_size c =? 1)) eqn:Es.
    + right. apply andb_prop in Es as [Es En]. unfold dm_is_scalar in Es. apply andb_prop in Es as [E1 E2]. apply Nat.eqb_eq in E1, E2. apply Bool.negb_true_iff, Nat.eqb_neq in En.
      split; [unfold dm_shape; congruence|]. split; [exact En|]. unfold fill_scalar in H. destruct (dm_nz a) as [|x l]; [right|left; discriminate].
      cbn [dm_nr dm_nc dm_sp sp_nr sp_nc] in H. unfold dm_nr, dm_nc in H. cbn [dm_sp sp_nr sp_nc] in H. rewrite !Nat.eqb_refl in H. cbn [andb negb] in H. destruct (t_struct _) as [ct|]; [|discriminate]. cbn [rbind] in H.
      unfold dense_elems, sp_is_dense in H. cbn [dm_sp sp_nr sp_nc] in H. unfold sp_nnz in H. cbn [sp_pat length] in H. destruct (Nat.eqb_spec 0 (cs_size c * cs_size c2)); [congruence|discriminate].
    + left. destruct ((dm_nc a =? cs_size c2) && (dm_nr a =? cs_size c)) eqn:Eq; [|discriminate]. cbn [negb] in H.
      apply andb_prop in Eq as [E2 E1]. apply Nat.eqb_eq in E1, E2. destruct (t_struct _) as [ct|]; [|discriminate]. cbn [rbind] in H. unfold dense_elems in H.
      destruct (sp_is_dense (dm_sp a)) eqn:D; [|discriminate]. apply (dense_iff_sp a _ _ Ho); [unfold dm_shape; congruence|exact D].
  - intros [H|(Hs & Hn & H)]; [exact (product_ok s c s2 c2 a Hw Hw2 Hc Hc2 H)|].
    assert (X : forall b, fill_scalar (cs_size c) (cs_size c2) a = b -> product_ s c s2 c2 b = product_ s c s2 c2 a).
    { intros b Hb. assert (Sb : dm_shape b = (cs_size c, cs_size c2)) by (subst b; unfold fill_scalar; destruct (dm_nz a); reflexivity).
      unfold product_. rewrite (fill_not_needed b _ _ Sb). unfold dm_shape in Hs. injection Hs as E1 E2. unfold dm_is_scalar. rewrite E1, E2. apply Nat.eqb_neq in Hn. rewrite Hn. cbn [Nat.eqb andb negb]. now rewrite Hb. }
    destruct (dm_nz a) as [|x l] eqn:Ez.
    + destruct H as [H|H]; [congruence|]. rewrite <- (X (DM (Spy (cs_size c) (cs_size c2) []) [])) by (unfold fill_scalar; now rewrite Ez).
      apply (product_ok s c s2 c2 _ Hw Hw2 Hc Hc2). cbn [dm_sp]. rewrite (sp_dense_shape (Spy (cs_size c) (cs_size c2) [])); [reflexivity| |].
      * split; cbn [sp_pat]; constructor.
      * unfold sp_is_dense, sp_nnz. cbn. rewrite H. reflexivity.
    + rewrite <- (X _ eq_refl). apply (product_ok s c s2 c2 _ Hw Hw2 Hc Hc2). unfold fill_scalar. now rewrite Ez.
Qed.
(** Other shapes raise, whatever the elements. *)
Theorem product_bad_shape s c s2 c2 (a : dm T) : dm_shape a <> (cs_size c, cs_size c2) -> (dm_shape a = (1, 1) -> cs_size c = 1) -> product_ s c s2 c2 a = Err EException.
Proof.
  intros Hs H1. unfold product_. destruct (dm_is_scalar a && negb (cs_size c =? 1)) eqn:Es.
  - exfalso. apply andb_prop in Es as [Es En]. unfold dm_is_scalar in Es. apply andb_prop in Es as [E1 E2]. apply Nat.eqb_eq in E1, E2. apply Bool.negb_true_iff, Nat.eqb_neq in En. apply En, H1. unfold dm_shape. congruence.
  - destruct (Nat.eqb_spec (dm_nc a) (cs_size c2)) as [E2|E2]; [|reflexivity]. destruct (Nat.eqb_spec (dm_nr a) (cs_size c)) as [E1|E1]; [|reflexivity]. exfalso. apply Hs. unfold dm_shape. congruence.
Qed.
End V.

(** A 2 x 3 view from a matrix, a scalar, a matrix of the wrong shape and a row. *)
Example view_ex :
  let s := mkStruct [mkEntry "x" [] None (sp_dense 2 1) false None None]%string [OName "x"%string] in
  let s2 := mkStruct [mkEntry "y" [] None (sp_dense 3 1) false None None]%string [OName "y"%string] in
  exists c c2, casadi_structure s = Ok c /\ casadi_structure s2 = Ok c2 /\
    (exists v, product_ s c s2 c2 (DM (sp_dense 2 3) [1; 2; 3; 4; 5; 6]) = Ok v) /\ (exists v, product_ s c s2 c2 (dm_scalar 7) = Ok v) /\
    product_ s c s2 c2 (DM (sp_dense 3 2) [1; 2; 3; 4; 5; 6]) = Err EException /\ product_ s c s2 c2 (DM (sp_dense 1 3) [1; 2; 3]) = Err EException.
Proof. cbv zeta. do 2 eexists. do 2 (split; [reflexivity|]). split; [eexists; vm_compute; reflexivity|]. split; [eexists; vm_compute; reflexivity|]. split; vm_compute; reflexivity. Qed.
