(** Examples and refutations for DAE models (C40-C42). *)
From Coq Require Import Reals Lra.
From Verif Require Import PyBase IndexModel DMModel DMProofs StructModel StructSpec PowerModel EntryModel StructsModel IneqModel IneqSpec IneqThms DaeModel DaeSpec DaeThms.
Open Scope nat_scope.

(** Symbols: 1 is [x] (two elements), 2 is [u], 3 is [z], 4 is [tdp]. *)
Definition Xs : mobj := new_sym 1 2.
Definition Us : mobj := new_sym 2 1.
Definition Zs : mobj := new_sym 3 1.
Definition Ts : mobj := new_sym 4 1.
(** ode = [x1; u - x0], alg = z - x0 x1 *)
Definition Ode : mobj := MObj (dm_col [(fun v : val => v 1 1 0); (fun v : val => Rminus (v 2 0 0) (v 1 0 0))]) None false.
Definition Alg : mobj := MObj (dm_col [(fun v : val => Rminus (v 3 0 0) (Rmult (v 1 0 0) (v 1 1 0)))]) None false.
Definition kw1 : mkw := [("x", Xs); ("u", Us); ("z", Zs); ("ode", Ode); ("alg", Alg); ("tdp", Ts)]%string.
Lemma col_ok l : MoOk (MObj (dm_col l) None false). Proof. split; [apply dm_col_ok|exact I]. Qed.
Ltac kwok := intros k m Hin; simpl in Hin; repeat (destruct Hin as [[= <- <-]|Hin]; [first [apply new_sym_ok|apply col_ok]|]); destruct Hin.
Lemma kw1_ok : KwOk kw1. Proof. kwok. Qed.
Definition D1 : dae := DaeObj Xs Zs Us (new_sym 0 0) (new_sym 9 1) (new_sym 0 0) Ts (DSemi Ode Alg).
Example semi_ex : semi_init 9 kw1 = Ok D1.
Proof. reflexivity. Qed.
Example semi_ok_ex : SemiOk kw1.
Proof. apply (semi_iff 9 kw1 kw1_ok). exists D1. exact semi_ex. Qed.
Lemma D1_made : SemiMade D1. Proof. exists 9, kw1. split; [exact kw1_ok|exact semi_ex]. Qed.
(** Refused: the wrong number of equations; an expression as state; no x. *)
Example semi_size : semi_init 9 [("x", Xs); ("ode", Alg)]%string = Err EValue. Proof. reflexivity. Qed.
Example semi_state : semi_init 9 [("x", Ode); ("ode", Ode)]%string = Err EValue. Proof. reflexivity. Qed.
Example semi_missing : semi_init 9 [("ode", Ode)]%string = Err EKey. Proof. reflexivity. Qed.
Example impl_ex : exists d, impl_init 9 [("x", Xs); ("xdot", new_sym 5 2); ("dae", Ode)]%string = Ok d. Proof. eexists. reflexivity. Qed.

(** C40: algebraic variables without algebraic equations are accepted. *)
Theorem semi_no_alg_refuted :
  exists kw d ode alg, KwOk kw /\ semi_init 9 kw = Ok d /\ d_kind d = DSemi ode alg /\ numel alg <> numel (d_z d) /\ make_implicit 7 d = Err EValue.
Proof.
  exists [("x", Xs); ("z", Zs); ("ode", Ode)]%string. do 3 eexists. split; [kwok|]. split; [reflexivity|]. split; [reflexivity|]. split; [discriminate|reflexivity].
Qed.
(** C40: [xdot] of an implicit DAE need not be symbolic. *)
Theorem impl_xdot_refuted :
  exists kw d xdot e, KwOk kw /\ impl_init 9 kw = Ok d /\ d_kind d = DImpl xdot e /\ mo_valid xdot = false.
Proof.
  exists [("x", Xs); ("xdot", Ode); ("dae", Ode)]%string. do 3 eexists. split; [kwok|]. split; [reflexivity|]. split; reflexivity.
Qed.

(** C40: a structure of one element given as [t]. *)
Definition St : structure := mkStruct [mkEntry "t" [] None (sp_dense 1 1) false None None]%string [OName "t"%string].
Definition kwt : mkw := [("x", Xs); ("ode", Ode); ("t", MObj (dm_col [fun v : val => v 6 0 0]) (Some St) true)]%string.
Lemma St_Wf : Wf St.
Proof. apply Wf_intro; [simpl; repeat constructor; simpl; tauto|apply Permutation.Permutation_refl|intros e [<-|[]]; apply SpOk_dense|intros e s' [<-|[]]; discriminate]. Qed.
Theorem struct_t_refuted : exists kw, KwOk kw /\ BaseAsks kw /\ dae_init 9 kw = Err EAttr /\ semi_init 9 kw = Err EAttr.
Proof.
  exists kwt. split.
  { intros k m Hin. simpl in Hin. destruct Hin as [[= <- <-]|[[= <- <-]|[[= <- <-]|[]]]]; [apply new_sym_ok|apply col_ok|]. split; [apply dm_col_ok|]. split; [exact St_Wf|].
    eexists. split; reflexivity. }
  split; [|split; reflexivity]. split; [exists Xs; repeat split|]. split; [now left|]. split; [now left|]. split; [now left|]. split; [|now left].
  right. eexists. split; [reflexivity|]. split; reflexivity.
Qed.

(** C41 on the example. *)
Lemma Ode_indep : Indep 7 Ode.
Proof.
  intros v w p H. unfold mx_at, dm_at, Ode, dm_col, sp_dense. simpl. destruct (pos_eqb p (0, 0)); [apply H; lia|]. destruct (pos_eqb p (1, 0)); [|reflexivity].
  rewrite (H 2 0 0), (H 1 0 0) by lia. reflexivity.
Qed.
Lemma Alg_indep : Indep 7 Alg.
Proof.
  intros v w p H. unfold mx_at, dm_at, Alg, dm_col, sp_dense. simpl. destruct (pos_eqb p (0, 0)); [|reflexivity].
  rewrite (H 3 0 0), (H 1 0 0), (H 1 1 0) by lia. reflexivity.
Qed.
Example make_implicit_ex : exists d e, make_implicit 7 D1 = Ok d /\ d_kind d = DImpl (new_sym 7 2) e /\ numel e = 3 /\
  forall v, at_ e 0 v = Rminus (v 7 0 0) (v 1 1 0) /\ at_ e 1 v = Rminus (v 7 1 0) (Rminus (v 2 0 0) (v 1 0 0)) /\ at_ e 2 v = Rminus (v 3 0 0) (Rmult (v 1 0 0) (v 1 1 0)).
Proof.
  destruct (make_implicit_ok D1 7 D1_made Ode Alg eq_refl eq_refl) as (e & He & Ne & _ & H1 & H2). eexists _, e. split; [exact He|]. split; [reflexivity|]. split; [exact Ne|].
  intros v. assert (L : 0 < numel (d_x D1) /\ 1 < numel (d_x D1)) by (unfold numel; simpl; lia).
  rewrite (H1 0), (H1 1) by apply L. split; [reflexivity|]. split; [reflexivity|]. apply (H2 0 v). unfold numel. simpl. lia.
Qed.

(** C42: two models in parallel; the result has no right-hand sides and no
    time-dependent parameters. *)
Theorem parallel_dynamics_refuted :
  exists ds d os, ds <> [] /\ Forall SemiMade ds /\ parallel (forallb mo_valid) 9 ds = Ok (d, os) /\
    (forall m, In m ds -> dae_attr m "ode" = Ok Ode /\ numel (d_tdp m) = 1) /\
    dae_attr d "ode" = Err EAttr /\ numel (d_tdp d) = 0.
Proof.
  destruct (parallel_spec (forallb mo_valid) 9 [D1; D1]) as (xs & zs & us & ps & qs & ox & oz & ou & op & oq & oo & oa & mx & mz & mu & mp & mq & Hx & Hz & Hu & Hp & Hq & _ & _ & _ & _ & _ & E).
  { repeat constructor; exact D1_made. }
  assert (G : forall a ms m, Members [D1; D1] a ms -> dae_attr D1 a = Ok m -> mo_valid m = true -> forallb mo_valid ms = true).
  { intros a ms m [Hl Hi] Hm Hv. destruct (Hi 0 D1 eq_refl) as (m1 & E1 & A1). destruct (Hi 1 D1 eq_refl) as (m2 & E2 & A2).
    rewrite Hm in A1, A2. injection A1 as <-. injection A2 as <-. destruct ms as [|y [|y' [|? ?]]]; try discriminate Hl. simpl in *. injection E1 as ->. injection E2 as ->. now rewrite Hv. }
  rewrite (G "x"%string xs _ Hx eq_refl eq_refl), (G "z"%string zs _ Hz eq_refl eq_refl), (G "u"%string us _ Hu eq_refl eq_refl), (G "p"%string ps _ Hp eq_refl eq_refl) in E.
  simpl in E. eexists [D1; D1], _, _. split; [discriminate|]. split; [repeat constructor; exact D1_made|]. split; [exact E|]. split; [|split; reflexivity].
  intros m [<-|[<-|[]]]; split; reflexivity.
Qed.
