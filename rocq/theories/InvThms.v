(** C92: assignments, accepted or refused, never change the number of elements of a structure. *)
From Verif Require Import PyBase IndexModel DMModel StructModel StructSpec PowerModel PowerSpec StructsModel AliasModel
  IndexProofs StructProofs LayoutProofs LayoutThms LayoutExamples DMProofs PowerProofs PowerThms PowerThms2 PowerThms3 PowerExamples StructsThms8 LabelThms AliasThms.
Open Scope list_scope.
Open Scope nat_scope.

Section Inv.
Context {T : Type} (zero : T).
Notation rval := (rval T).
Notation pel := (pel T).
Notation pay := (pay T).
Notation env := (env T).
Notation einfo := (einfo T).
Notation pstate := (pstate T).
Notation clos := (@clos T).

(** A relation between the state before and the state after that the elementary assignments have. *)
Section Rel.
Variable en : env.
Variable R : pstate -> pstate -> Prop.
Hypothesis Rrefl : forall st, R st st.
Hypothesis Rtrans : forall a b c, R a b -> R b c -> R a c.
(** Canonical indices that are reached, and whether functions may occur in the index. *)
Variable Q : cidx -> Prop.
Variable fok : Prop.
Hypothesis Qext : forall ci k, Q ci -> Q (ci ++ [k]).
Definition okpi (pi : list pel) : Prop := fok \/ Forall (fun p => match p with PFun _ => False | _ => True end) pi.
Hypothesis Rset : forall ci mi ei flip ex i m st, Q ci -> okpi ex -> cmap_get ci (en_map en) = Some mi ->
  performExtraIndex ei flip (RIdx mi) ex = Ok (RIdx i) -> R st (fst (master_set zero (en_kind en) i m st)).
Hypothesis Rany : fok -> forall i m st, R st (fst (master_set zero (en_kind en) i m st)).
Hypothesis Rsto : forall st l, length l = length (ps_storage st) -> R st (PState (ps_master st) (ps_mirror st) l).
Definition keeps {A} (m : @M T A) : Prop := forall st, R st (fst (m st)).

Lemma k_ret {A} (a : A) : keeps (mret a).
Proof. intros st. apply Rrefl. Qed.
Lemma k_err {A} e : keeps (@merr T A e).
Proof. intros st. apply Rrefl. Qed.
Lemma k_lift {A} (r : res A) : keeps (mlift r).
Proof. intros st. apply Rrefl. Qed.
Lemma k_bind {A B} (m : @M T A) (k : A -> @M T B) : keeps m -> (forall a, keeps (k a)) -> keeps (mbind m k).
Proof.
  intros Hm Hk st. unfold mbind. specialize (Hm st). destruct (m st) as [s [a|e]]; cbn [fst] in *; [|exact Hm]. eapply Rtrans; [exact Hm|apply Hk].
Qed.
Lemma k_wrap {A} (m : @M T A) : keeps m -> keeps (mwrap m).
Proof. intros Hm st. rewrite mwrap_fst. apply Hm. Qed.
Lemma k_mmapM {A B} (f : A -> @M T B) l : (forall a, In a l -> keeps (f a)) -> keeps (mmapM f l).
Proof.
  induction l as [|a l IH]; intros H; [apply k_ret|]. simpl. apply k_bind; [apply H; now left|].
  intros b. apply k_bind; [apply IH; intros; apply H; now right|]. intros bs. apply k_ret.
Qed.
Lemma k_set ci mi ei flip ex i m : Q ci -> okpi ex -> cmap_get ci (en_map en) = Some mi ->
  performExtraIndex ei flip (RIdx mi) ex = Ok (RIdx i) -> keeps (master_set zero (en_kind en) i m).
Proof. intros HQ Hp Hm He st. eapply Rset; eauto. Qed.
Lemma k_liftb {A B} (r : res A) (k : A -> @M T B) : (forall a, r = Ok a -> keeps (k a)) -> keeps (mbind (mlift r) k).
Proof. intros H st. unfold mbind, mlift. destruct r; [now apply H|apply Rrefl]. Qed.
Lemma okpi_tl x pi : okpi (x :: pi) -> okpi pi.
Proof. intros [H|H]; [now left|right]. now inversion H. Qed.
Lemma okpi_nil : okpi [].
Proof. right. constructor. Qed.
Lemma okpi_nest : okpi [PNest].
Proof. right. repeat constructor. Qed.
Lemma k_pure {A} (m : @M T A) : pure m -> keeps m.
Proof. intros H st. rewrite H. apply Rrefl. Qed.
Lemma k_look {B} (d : list (string * clos)) k (g : clos -> @M T B) : (forall f, In (k, f) d -> keeps (g f)) -> keeps (mbind (look d k) g).
Proof.
  intros H. unfold look. destruct (dict_get k d) as [f|] eqn:E; [|intros st; apply Rrefl].
  intros st. rewrite mbind_ret. apply H. now apply dict_get_In.
Qed.
Lemma k_mdict (m : @M T (list (string * rval))) : keeps m -> keeps (mdict m).
Proof. intros H. apply k_bind; [exact H|]. intros; apply k_ret. Qed.

Lemma k_setter p ci ex ei : Q ci -> okpi (extra ex) -> keeps (setter zero en p ci ex ei).
Proof.
  intros HQ Hp. unfold setter. apply k_bind; [apply k_lift|]. intros m. destruct (cmap_get ci (en_map en)) as [mi|] eqn:Em; [|apply k_err].
  apply k_liftb. intros i Ei. destruct i as [|?|i|?|?|?]; try apply k_err.
  assert (Ki : forall m', keeps (master_set zero (en_kind en) i m')) by (intros; exact (k_set ci mi ei false _ i _ HQ Hp Em Ei)).
  destruct (is_symm ei); [|apply k_bind; [apply Ki|intros; apply k_ret]].
  apply k_liftb. intros f Ef. destruct f as [|?|f|?|?|?]; try apply k_err.
  assert (Kf : forall m', keeps (master_set zero (en_kind en) f m')) by (intros; exact (k_set ci mi ei true _ f _ HQ Hp Em Ef)).
  destruct (dm_is_scalar m).
  - apply k_bind; [apply Ki|]. intros _. apply k_bind; [apply Kf|]. intros _. apply k_ret.
  - destruct (match ei with Some e => ei_orig e | None => None end); [|apply k_err].
    apply k_bind; [apply k_lift|]. intros oi. destruct oi; try apply k_err. destruct (spy_eqb _ _); [|apply k_err].
    apply k_bind; [apply k_lift|]. intros pt. apply k_bind; [apply Kf|]. intros _. apply k_bind; [apply k_lift|]. intros pu.
    apply k_bind; [apply Ki|]. intros _. apply k_ret.
Qed.
Lemma k_inject p ci ex : keeps (inject en p ci ex).
Proof.
  unfold inject. destruct ex; [apply k_err|]. destruct (cmap_get ci (en_mapping en)); [|apply k_err]. destruct (cmap_get ci (en_map en)); [|apply k_err].
  destruct p; try apply k_err. destruct (spy_eqb _ _); [|apply k_err]. intros st. cbn [fst]. apply Rsto. apply set_nth_length.
Qed.
Lemma k_dispatch md p ci ex ei : Q ci -> okpi (extra ex) -> keeps (dispatch zero en md p ci ex ei).
Proof.
  intros HQ Hp. destruct md; cbn [dispatch]; [|now apply k_setter| | |apply k_inject].
  - apply k_pure. apply (pure_dispatch zero en MGet p). reflexivity.
  - apply k_lift.
  - apply k_lift.
Qed.
Lemma k_outer md p r : fok -> keeps (outer zero en md p r).
Proof.
  intros Hf. destruct md; try apply k_ret. cbn [outer]. destruct r; try apply k_err. apply k_bind; [apply k_lift|]. intros. apply k_bind; [intros st; now apply Rany|]. intros; apply k_ret.
Qed.
Lemma okpi_fun f rest : okpi (PFun f :: rest) -> fok.
Proof. intros [H|H]; [exact H|]. inversion H; contradiction. Qed.

Definition kclos (f : clos) : Prop := forall md pi ci p, Q ci -> okpi pi -> keeps (f en md pi ci p).

Lemma k_travD ei sub : (forall f, sub = Some f -> kclos f) -> forall dims md pi ci p, Q ci -> okpi pi -> keeps (travD zero en ei sub dims md pi ci p).
Proof.
  intros Hsub. induction dims as [|d ds IH]; intros md pi ci p HQ Hp.
  - simpl. apply k_wrap. destruct pi; [apply k_dispatch; [exact HQ|apply okpi_nil]|]. destruct sub as [f|]; [apply Hsub; auto|now apply k_dispatch].
  - cbn [travD].
    assert (Hmany : forall md ci p l rest, Q ci -> okpi rest -> keeps (rs <- mmapM (fun k => match k with
                     | KS _ => merr EType
                     | KI i => p' <- mlift (payloadUnpack p k) ;;
                               travD zero en ei sub ds md rest (ci ++ [KI (canonical i d)]) p'
                     end) l ;; mret (RList rs))).
    { intros md' ci' p' l rest HQ' Hp'. apply k_bind; [|intros; apply k_ret]. apply k_mmapM. intros [|] _; [apply k_err|].
      apply k_bind; [apply k_lift|]. intros. apply IH; auto. }
    revert md p. induction pi as [|x rest IHp]; intros md p; apply k_wrap.
    + apply k_bind; [apply k_lift|]. intros. apply Hmany; auto using okpi_nil.
    + pose proof (okpi_tl x rest Hp) as Hr. destruct x; try apply k_err; try (apply Hmany; auto using okpi_nest; fail).
      * apply IH; auto.
      * apply k_bind; [apply k_lift|]. intros. apply Hmany; auto.
      * pose proof (okpi_fun _ _ Hp) as Hf. apply k_bind; [apply k_lift|]. intros md'. apply k_bind; [apply (IHp Hr)|]. intros r. apply k_bind; [apply k_lift|]. intros r'. now apply k_outer.
Qed.
Lemma k_travS_body d keys : (forall k f, In (k, f) d -> kclos f) -> forall md pi ci p, Q ci -> okpi pi -> keeps (travS_body zero d keys en md pi ci p).
Proof.
  intros Hd md pi. revert md.
  assert (Hdict : forall md ci p rest, Q ci -> okpi rest ->
     keeps (match p with
    | PayDict kv =>
        mdict (mmapM (fun x => f <- look d (fst x) ;;
                               r <- f en md rest (ci ++ [KS (fst x)]) (snd x) ;; mret (fst x, r)) kv)
    | _ =>
        mdict (mmapM (fun x => r <- snd x en md rest (ci ++ [KS (fst x)]) p ;; mret (fst x, r)) d)
    end)).
  { intros md ci p rest HQ Hr. destruct p; apply k_mdict, k_mmapM; intros [k f] Hin;
      try (apply k_bind; [apply (Hd k f); auto|]; intros; apply k_ret).
    apply k_look. intros f' Hf. apply k_bind; [apply (Hd _ _ Hf); auto|]. intros; apply k_ret. }
  induction pi as [|x rest IH]; intros md ci p HQ Hp; cbn [travS_body]; apply k_wrap.
  - apply k_dispatch; [exact HQ|apply okpi_nil].
  - pose proof (okpi_tl x rest Hp) as Hr. destruct x; try apply k_err; try (apply Hdict; auto using okpi_nest; fail).
    + apply k_look. intros f Hf. apply (Hd _ _ Hf); auto.
    + apply k_bind; [|intros; apply k_ret]. apply k_mmapM. intros [i k] _. apply k_bind; [apply k_lift|]. intros. apply IH; auto.
    + apply k_bind; [|intros; apply k_ret]. apply k_mmapM. intros [i k] _.
      apply k_look. intros f Hf. apply k_bind; [apply k_lift|]. intros. apply (Hd _ _ Hf); auto.
    + destruct p; apply k_mdict, k_mmapM; intros y _; apply k_look; intros f Hf;
        (apply k_bind; [apply (Hd _ _ Hf); auto|]); intros; apply k_ret.
    + pose proof (okpi_fun _ _ Hp) as Hf. apply k_bind; [apply k_lift|]. intros md'. apply k_bind; [now apply IH|]. intros r. apply k_bind; [apply k_lift|]. intros r'. now apply k_outer.
Qed.
Lemma k_travE e : (forall s', e_struct e = Some s' -> kclos (travS zero s')) -> kclos (travE zero e).
Proof.
  intros H md pi ci p HQ Hp. rewrite travE_eq. apply k_travD; [|exact HQ|exact Hp]. unfold subT. intros f. destruct (e_struct e) as [s'|] eqn:Es; [|discriminate]. intros [= <-]. now apply H.
Qed.
Lemma k_travS s : kclos (travS zero s).
Proof.
  induction s as [es order IH] using structure_ind2. intros md pi ci p HQ Hp. rewrite travS_eq.
  apply k_travS_body; [|exact HQ|exact Hp]. intros k f Hin. unfold sdictT in Hin. apply in_pydict in Hin. simpl in Hin.
  apply in_map_iff in Hin as (e & [= <- <-] & He). apply k_travE. intros s' Es. eapply IH; eauto.
Qed.
End Rel.

Lemma assign_length sk (v : list T) i m w : vec_assign sk zero v i m = Ok w -> length w = length v.
Proof.
  unfold vec_assign.
  assert (G : forall m' : dm T, (if forallb (fun k => k <? length v) (dm_nz i) then Ok (vec_set_list v (dm_nz i) (dm_nz m')) else Err EException) = Ok w -> length w = length v).
  { intros m'. destruct (forallb _ _); [|discriminate]. intros [= <-]. apply vec_set_list_length. }
  destruct (spy_eqb _ _); [apply G|]. destruct (dm_is_scalar m).
  - destruct (dm_nz m); [destruct sk; [now intros [= <-]|]|]; apply (G (DM _ _)).
  - destruct (_ && _); [apply G|]. destruct (_ && _); [apply G|discriminate].
Qed.

(** No assignment whatever changes the number of elements. *)
Theorem set_keeps_size s (en : env) pi v st st' r : setitem zero s en pi v st = (st', r) ->
  length (ps_master st') = length (ps_master st) /\ length (ps_mirror st') = length (ps_mirror st) /\ length (ps_storage st') = length (ps_storage st).
Proof.
  intros E.
  pose (R := fun a b : pstate => length (ps_master b) = length (ps_master a) /\ length (ps_mirror b) = length (ps_mirror a) /\ length (ps_storage b) = length (ps_storage a)).
  assert (K : keeps R (setitem zero s en pi v)).
  { assert (Hs : forall i m a, R a (fst (master_set zero (en_kind en) i m a))).
    { intros i m a. unfold master_set, R, vec_set, vec_set_nz. destruct (en_kind en); destruct (vec_assign _ _ _ _ _) eqn:Ev; cbn [fst ps_master ps_mirror ps_storage]; auto;
        apply assign_length in Ev; repeat split; auto. apply vec_set_list_length. }
    apply (k_travS en R) with (Q := fun _ => True) (fok := True); auto; [unfold R; auto| |unfold R; auto|now left].
    unfold R. intros a b c (H1 & H2 & H3) (H4 & H5 & H6). repeat split; congruence. }
  specialize (K st). rewrite E in K. exact K.
Qed.

(** Repeated data: the vector and the caller's matrix hold the same numbers after every assignment, accepted or refused. *)
Theorem set_keeps_mirror s (en : env) pi v st st' r : en_kind en = KRep -> ps_mirror st = ps_master st ->
  setitem zero s en pi v st = (st', r) -> ps_mirror st' = ps_master st'.
Proof.
  intros Hk Hm E.
  pose (R := fun a b : pstate => ps_mirror a = ps_master a -> ps_mirror b = ps_master b).
  assert (K : keeps R (setitem zero s en pi v)).
  { assert (Hs : forall i m a, R a (fst (master_set zero (en_kind en) i m a))); [|apply (k_travS en R) with (Q := fun _ => True) (fok := True); auto; [unfold R; auto..|now left]].
    intros i m a. unfold master_set, R, vec_set, vec_set_nz. rewrite Hk. destruct (vec_assign _ _ _ _ _) eqn:Ev; cbn [fst ps_master ps_mirror]; auto.
    intros H. apply assign_length in Ev. apply (mirror_copy zero). rewrite Ev. now rewrite H. }
  specialize (K st). rewrite E in K. exact (K Hm).
Qed.

(** Reading: the result depends only on the elements of the index matrices below the canonical indices that are reached. *)
Section Same.
Variable en : env.
Variable S : pstate -> pstate -> Prop.
Variable Q : cidx -> Prop.
Hypothesis Hpm : en_pmap en = [].
Hypothesis Qext : forall ci k, Q ci -> Q (ci ++ [k]).
Definition nofs (pi : list pel) : Prop := Forall (fun p => match p with PFun _ => False | _ => True end) pi.
Hypothesis Sget : forall ci mi ei ex i st st', Q ci -> nofs ex -> S st st' -> cmap_get ci (en_map en) = Some mi ->
  performExtraIndex ei false (RIdx mi) ex = Ok (RIdx i) -> vec_get (ps_master st) i = vec_get (ps_master st') i.
Definition same {A} (m : @M T A) : Prop := pure m /\ forall st st', S st st' -> snd (m st) = snd (m st').
Lemma m_pure {A} (m : @M T A) st : pure m -> m st = (st, snd (m st)).
Proof. intros H. specialize (H st). destruct (m st); cbn in *; congruence. Qed.
Lemma s_ret {A} (a : A) : same (mret a).
Proof. split; [apply pure_ret|reflexivity]. Qed.
Lemma s_err {A} e : same (@merr T A e).
Proof. split; [apply pure_err|reflexivity]. Qed.
Lemma s_lift {A} (r : res A) : same (mlift r).
Proof. split; [apply pure_lift|reflexivity]. Qed.
Lemma s_bind {A B} (m : @M T A) (k : A -> @M T B) : same m -> (forall a, same (k a)) -> same (mbind m k).
Proof.
  intros [Hm Hm'] Hk. split; [apply pure_bind; [exact Hm|intros; apply Hk]|]. intros st st' HS. unfold mbind. rewrite (m_pure m st Hm), (m_pure m st' Hm).
  rewrite (Hm' st st' HS). destruct (snd (m st')); [|reflexivity]. now apply Hk.
Qed.
Lemma s_wrap {A} (m : @M T A) : same m -> same (mwrap m).
Proof.
  intros [Hm Hm']. split; [now apply pure_wrap|]. intros st st' HS. unfold mwrap. rewrite (m_pure m st Hm), (m_pure m st' Hm). rewrite (Hm' st st' HS). now destruct (snd (m st')).
Qed.
Lemma s_mmapM {A B} (f : A -> @M T B) l : (forall a, In a l -> same (f a)) -> same (mmapM f l).
Proof.
  induction l as [|a l IH]; intros H; [apply s_ret|]. simpl. apply s_bind; [apply H; now left|].
  intros b. apply s_bind; [apply IH; intros; apply H; now right|]. intros bs. apply s_ret.
Qed.
Lemma s_look {B} (d : list (string * clos)) k (g : clos -> @M T B) : (forall f, In (k, f) d -> same (g f)) -> same (mbind (look d k) g).
Proof.
  intros H. unfold look. destruct (dict_get k d) as [f|] eqn:E; [|split; intros st; reflexivity].
  destruct (H f (dict_get_In _ _ _ E)) as [H1 H2]. split; intros st; rewrite ?mbind_ret; [apply H1|intros st' HS; now apply H2].
Qed.
Lemma s_mdict (m : @M T (list (string * rval))) : same m -> same (mdict m).
Proof. intros H. apply s_bind; [exact H|]. intros; apply s_ret. Qed.
Lemma s_dispatch p ci ex ei : Q ci -> nofs (extra ex) -> same (dispatch zero en MGet p ci ex ei).
Proof.
  intros HQ Hp. split; [now apply pure_dispatch|]. intros st st' HS. cbn [dispatch]. unfold getter. destruct (cmap_get ci (en_map en)) as [mi|] eqn:Em; [|reflexivity].
  rewrite Hpm. assert (Ee : match extra ex with [] => cmap_get ci [] | _ => @None (dm T) end = None) by (destruct (extra ex); reflexivity).
  cbn [cmap_get] in *. rewrite Ee. unfold mbind, mlift, get_master. destruct (performExtraIndex ei false (RIdx mi) (extra ex)) as [i|e] eqn:Ei; [|reflexivity].
  destruct i as [|?|i|?|?|?]; try reflexivity. pose proof (Sget ci mi ei _ i st st' HQ Hp HS Em Ei) as Hv. unfold correct_vector_indexing.
  destruct (is_symm ei); cbn [snd]; now rewrite Hv.
Qed.
Definition sclos (f : clos) : Prop := forall pi ci p, Q ci -> nofs pi -> same (f en MGet pi ci p).
Lemma nofs_tl x pi : nofs (x :: pi) -> nofs pi.
Proof. intros H. now inversion H. Qed.
Lemma nofs_nil : nofs [].
Proof. constructor. Qed.
Lemma nofs_nest : nofs [PNest].
Proof. repeat constructor. Qed.
Lemma s_travD ei sub : (forall f, sub = Some f -> sclos f) -> forall dims pi ci p, Q ci -> nofs pi -> same (travD zero en ei sub dims MGet pi ci p).
Proof.
  intros Hsub. induction dims as [|d ds IH]; intros pi ci p HQ Hp.
  - simpl. apply s_wrap. destruct pi; [apply (s_dispatch PayNone); [exact HQ|apply nofs_nil]|]. destruct sub as [f|]; [apply Hsub; auto|now apply (s_dispatch PayNone)].
  - cbn [travD].
    assert (Hmany : forall ci p l rest, Q ci -> nofs rest -> same (rs <- mmapM (fun k => match k with
                     | KS _ => merr EType
                     | KI i => p' <- mlift (payloadUnpack p k) ;;
                               travD zero en ei sub ds MGet rest (ci ++ [KI (canonical i d)]) p'
                     end) l ;; mret (RList rs))).
    { intros ci' p' l rest HQ' Hp'. apply s_bind; [|intros; apply s_ret]. apply s_mmapM. intros [|] _; [apply s_err|].
      apply s_bind; [apply s_lift|]. intros. apply IH; auto. }
    revert p. induction pi as [|x rest IHp]; intros p; apply s_wrap.
    + apply s_bind; [apply s_lift|]. intros. apply Hmany; auto using nofs_nil.
    + pose proof (nofs_tl x rest Hp) as Hr. destruct x; try apply s_err; try (apply Hmany; auto using nofs_nest; fail).
      * apply IH; auto.
      * apply s_bind; [apply s_lift|]. intros. apply Hmany; auto.
      * inversion Hp; contradiction.
Qed.
Lemma s_travS_body d keys : (forall k f, In (k, f) d -> sclos f) -> forall pi ci p, Q ci -> nofs pi -> same (travS_body zero d keys en MGet pi ci p).
Proof.
  intros Hd pi.
  assert (Hdict : forall ci p rest, Q ci -> nofs rest ->
     same (match p with
    | PayDict kv =>
        mdict (mmapM (fun x => f <- look d (fst x) ;;
                               r <- f en MGet rest (ci ++ [KS (fst x)]) (snd x) ;; mret (fst x, r)) kv)
    | _ =>
        mdict (mmapM (fun x => r <- snd x en MGet rest (ci ++ [KS (fst x)]) p ;; mret (fst x, r)) d)
    end)).
  { intros ci p rest HQ Hr. destruct p; apply s_mdict, s_mmapM; intros [k f] Hin;
      try (apply s_bind; [apply (Hd k f); auto|]; intros; apply s_ret).
    apply s_look. intros f' Hf. apply s_bind; [apply (Hd _ _ Hf); auto|]. intros; apply s_ret. }
  induction pi as [|x rest IH]; intros ci p HQ Hp; cbn [travS_body]; apply s_wrap.
  - apply (s_dispatch PayNone); [exact HQ|apply nofs_nil].
  - pose proof (nofs_tl x rest Hp) as Hr. destruct x; try apply s_err; try (apply Hdict; auto using nofs_nest; fail).
    + apply s_look. intros f Hf. apply (Hd _ _ Hf); auto.
    + apply s_bind; [|intros; apply s_ret]. apply s_mmapM. intros [i k] _. apply s_bind; [apply s_lift|]. intros. apply IH; auto.
    + apply s_bind; [|intros; apply s_ret]. apply s_mmapM. intros [i k] _.
      apply s_look. intros f Hf. apply s_bind; [apply s_lift|]. intros. apply (Hd _ _ Hf); auto.
    + destruct p; apply s_mdict, s_mmapM; intros y _; apply s_look; intros f Hf;
        (apply s_bind; [apply (Hd _ _ Hf); auto|]); intros; apply s_ret.
    + inversion Hp; contradiction.
Qed.
Lemma s_travE e : (forall s', e_struct e = Some s' -> sclos (travS zero s')) -> sclos (travE zero e).
Proof.
  intros H pi ci p HQ Hp. rewrite travE_eq. apply s_travD; [|exact HQ|exact Hp]. unfold subT. intros f. destruct (e_struct e) as [s'|] eqn:Es; [|discriminate]. intros [= <-]. now apply H.
Qed.
Lemma s_travS s : sclos (travS zero s).
Proof.
  induction s as [es order IH] using structure_ind2. intros pi ci p HQ Hp. rewrite travS_eq.
  apply s_travS_body; [|exact HQ|exact Hp]. intros k f Hin. unfold sdictT in Hin. apply in_pydict in Hin. simpl in Hin.
  apply in_map_iff in Hin as (e & [= <- <-] & He). apply s_travE. intros s' Es. eapply IH; eauto.
Qed.
End Same.

(** The elements of entry [n]. *)
Definition under (c : cstruct) (n : string) (k : nat) : Prop := exists t m, cmap_get (KS n :: t) (cs_map c) = Some m /\ In k (dm_nz m).
Lemma under_leaf s c n k : Wf s -> casadi_structure s = Ok c -> under c n k ->
  exists t, In (KS n :: t) (traverseCanonicalIndex s) /\ In k (match cmap_get (KS n :: t) (cs_map c) with Some m => dm_nz m | None => [] end).
Proof.
  intros Hw Hc (t & m & Hm & Hk). destruct (map_keys' s c _ m Hw Hc Hm) as [(e & Hl)|(s' & Hb & _)].
  - exists t. split; [apply (proj2 (canonical_leaves s Hw)); now exists e|]. now rewrite Hm.
  - rewrite (block_complete s c _ s' m Hw Hc Hb Hm) in Hk. apply in_flat_map in Hk as (ci & Hci & Hk). exists (t ++ ci).
    apply (proj2 (canonical_leaves s' (Block_Wf s _ s' Hw Hb))) in Hci as (e & Hl). split; [|exact Hk].
    apply (proj2 (canonical_leaves s Hw)). exists e. exact (proj2 (Block_Leaf s (KS n :: t) s' ci e Hw Hb) Hl).
Qed.
Lemma under_one s c n n' k : Wf s -> casadi_structure s = Ok c -> under c n k -> under c n' k -> n = n'.
Proof.
  intros Hw Hc H H'. destruct (under_leaf s c n k Hw Hc H) as (t & H1 & H2). destruct (under_leaf s c n' k Hw Hc H') as (t' & H3 & H4).
  destruct (string_dec n n') as [|Hn]; [assumption|]. exfalso.
  refine (flat_map_NoDup_inj _ _ _ _ k _ _ H1 H3 H2 H4); [rewrite (flat_partition s c Hw Hc); apply seq_NoDup|congruence].
Qed.

(** An assignment to entry [n], accepted or refused, leaves the elements of every other entry alone. *)
Theorem entry_local s c n pi v st st' r : Wf s -> casadi_structure s = Ok c -> no_fun pi ->
  setitem zero s (num_env c) (PStr n :: pi) v st = (st', r) ->
  forall k, ~ under c n k -> nth_error (ps_master st') k = nth_error (ps_master st) k.
Proof.
  intros Hw Hc Hf E k Hk. assert (Hf' : Forall (fun p : pel => match p with PFun _ => False | _ => True end) pi).
  { eapply Forall_impl; [|exact Hf]. intros []; auto. }
  pose (R := fun a b : pstate => nth_error (ps_master b) k = nth_error (ps_master a) k).
  pose (Q := fun ci : cidx => exists t, ci = KS n :: t).
  assert (Qe : forall ci x, Q ci -> Q (ci ++ [x])) by (intros ci x (t & ->); exists (t ++ [x]); reflexivity).
  assert (K : keeps R (setitem zero s (num_env c) (PStr n :: pi) v)).
  { unfold setitem. rewrite travS_eq. cbn [travS_body]. apply k_wrap. apply k_look; [unfold R; reflexivity|]. intros f Hin.
    assert (G : kclos (num_env c) R Q False f); [|apply G; [exists []; reflexivity|right; exact Hf']].
    unfold sdictT in Hin. apply in_pydict in Hin. apply in_map_iff in Hin as (e & [= En <-] & He).
    assert (Hs : forall ci mi ei flip (ex : list pel) i (m : dm T) st0, Q ci -> okpi False ex -> cmap_get ci (en_map (@num_env T c)) = Some mi ->
      performExtraIndex ei flip (RIdx mi) ex = Ok (RIdx i) -> R st0 (fst (master_set zero (en_kind (@num_env T c)) i m st0))).
    { intros ci mi ei flip ex i m st0 (t & ->) [[]|Hex] Hm He'. cbn [en_map num_env] in Hm. destruct (pei_ok ei flip mi ex _ (leaf_map_ok s c _ mi Hw Hc Hm) Hex He') as (i' & [= <-] & _ & Hi).
      unfold R. cbn [num_env en_kind master_set]. destruct (vec_set zero (ps_master st0) i m) eqn:Ev; [|reflexivity]. cbn [fst ps_master].
      apply (vec_assign_other false zero _ _ _ _ _ Ev). intros Hin. apply Hk. exists t, mi. auto. }
    assert (R1 : forall a, R a a) by (unfold R; reflexivity). assert (R2 : forall a b c0, R a b -> R b c0 -> R a c0) by (unfold R; congruence).
    assert (R3 : forall a l, length l = length (ps_storage a) -> R a (PState (ps_master a) (ps_mirror a) l)) by (unfold R; reflexivity).
    assert (R4 : False -> forall i (m : dm T) a, R a (fst (master_set zero (en_kind (@num_env T c)) i m a))) by contradiction.
    exact (k_travE (num_env c) R R1 R2 Q False Qe Hs R4 R3 e (fun s' _ => k_travS (num_env c) R R1 R2 Q False Qe Hs R4 R3 s')). }
  specialize (K st). rewrite E in K. exact K.
Qed.

(** … so that every other entry reads the same as before. *)
Theorem other_entries s c n n' pi pi' v st st' r : Wf s -> casadi_structure s = Ok c -> no_fun pi -> no_fun pi' -> n <> n' ->
  setitem zero s (num_env c) (PStr n :: pi) v st = (st', r) ->
  getitem zero s (num_env c) (PStr n' :: pi') st' = getitem zero s (num_env c) (PStr n' :: pi') st.
Proof.
  intros Hw Hc Hf Hf' Hn E. pose proof (entry_local s c n pi v st st' r Hw Hc Hf E) as Hloc.
  assert (Hp : nofs pi') by (eapply Forall_impl; [|exact Hf']; intros []; auto).
  pose (Q := fun ci : cidx => exists t, ci = KS n' :: t).
  assert (Qe : forall ci x, Q ci -> Q (ci ++ [x])) by (intros ci x (t & ->); exists (t ++ [x]); reflexivity).
  pose (S := fun a b : pstate => forall k, ~ under c n k -> nth_error (ps_master a) k = nth_error (ps_master b) k).
  assert (Sg : forall ci mi ei (ex : list pel) i a b, Q ci -> nofs ex -> S a b -> cmap_get ci (en_map (@num_env T c)) = Some mi ->
    performExtraIndex ei false (RIdx mi) ex = Ok (RIdx i) -> vec_get (ps_master a) i = vec_get (ps_master b) i).
  { intros ci mi ei ex i a b (t & ->) Hex HS Hm He. cbn [en_map num_env] in Hm. destruct (pei_ok ei false mi ex _ (leaf_map_ok s c _ mi Hw Hc Hm) Hex He) as (i' & [= <-] & _ & Hi).
    unfold vec_get. assert (H : forall l, incl l (dm_nz mi) -> rmapM (fun k => match nth_error (ps_master a) k with Some x => Ok x | None => Err EException end) l =
      rmapM (fun k => match nth_error (ps_master b) k with Some x => Ok x | None => Err EException end) l).
    { induction l as [|k l IH]; intros Hl; [reflexivity|]. cbn [rmapM]. rewrite (HS k), IH; [reflexivity|intros x Hx; apply Hl; now right|].
      intros Hu. apply Hn. apply (under_one s c n n' k Hw Hc Hu). exists t, mi. split; [exact Hm|apply Hl; now left]. }
    now rewrite (H _ Hi). }
  assert (K : same S (travS zero s (num_env c) MGet (PStr n' :: pi') [] PayNone)).
  { rewrite travS_eq. cbn [travS_body]. apply s_wrap, s_look. intros f Hin. assert (G : sclos (num_env c) S Q f); [|apply G; [exists []; reflexivity|exact Hp]].
    unfold sdictT in Hin. apply in_pydict in Hin. apply in_map_iff in Hin as (e & [= En <-] & He). apply s_travE; auto. intros s' _. apply s_travS; auto. }
  unfold getitem. apply (proj2 K). exact Hloc.
Qed.

(** [s(t.cat)] is no copy of [t]: whatever was assigned in between, it has the same data object. *)
Definition shaped (c : cstruct) (d : dm T) : Prop := dm_nr d = cs_size c /\ (dm_nc d = 1 \/ dm_nr d = 0).
Lemma dm_struct_iff nan h c r d : nth_error h r = Some d -> dm_struct nan h c (ARef r) = Ok (h, AObj c r) <-> shaped c d.
Proof.
  intros Hr. unfold dm_struct, shaped. cbn [master_of]. rewrite Hr. destruct (Nat.eqb_spec (dm_nr d) (cs_size c)) as [H1|H1]; cbn [negb]; [|split; [discriminate|tauto]].
  destruct (Nat.eqb_spec (dm_nc d) 1) as [H2|H2]; cbn [negb andb]; [tauto|]. destruct (Nat.ltb_spec 0 (dm_nr d)); [split; [discriminate|intros [_ [?|?]]; lia]|].
  split; [|reflexivity]. intros _. split; [exact H1|right; lia].
Qed.
Lemma a_sets_shaped h (o : aobj) l d : nth_error h (ao_ref o) = Some d -> shaped (ao_c o) d ->
  exists d', nth_error (a_sets zero h o l) (ao_ref o) = Some d' /\ shaped (ao_c o) d'.
Proof.
  revert h d. induction l as [|[pi v] l IH]; intros h d H Hs; [exists d; auto|]. cbn [a_sets]. unfold a_set, a_cat. rewrite H.
  destruct (setitem _ _ _ _ _ _) as [st rr] eqn:E. cbn [fst]. apply set_keeps_size in E as (E & _). cbn [ps_master] in E.
  apply (IH _ (dm_col (ps_master st))).
  - apply set_nth_same. apply nth_error_Some. congruence.
  - split; [|now left]. cbn. rewrite E. unfold column. rewrite map_length, seq_length. apply Hs.
Qed.
Theorem cat_no_copy nan h c a h' o l : call_dm zero nan h c a = Ok (h', o) ->
  call_dm zero nan (a_sets zero h' o l) c (ARef (ao_ref o)) = Ok (a_sets zero h' o l, o).
Proof.
  intros E. assert (G : ao_c o = c /\ exists d, nth_error h' (ao_ref o) = Some d /\ shaped c d).
  { assert (G : forall h0 k, dm_struct nan h0 c (ARef k) = Ok (h', o) -> ao_c o = c /\ exists d, nth_error h' (ao_ref o) = Some d /\ shaped c d).
    { intros h0 k E0. pose proof E0 as E1. apply struct_ok in E1 as [-> ->]. cbn [ao_c ao_ref]. split; [reflexivity|].
      destruct (nth_error h0 k) as [d|] eqn:Ed; [|unfold dm_struct in E0; cbn in E0; rewrite Ed in E0; discriminate]. exists d. split; [reflexivity|]. now apply (dm_struct_iff nan h0 c k d Ed). }
    unfold call_dm in E. destruct a as [k|d|]; (destruct (nth_error _ _) as [d0|]; [|discriminate]); (destruct (_ && _ && _); [now apply (G _ _ E)|now apply (G _ _ E)]). }
  destruct G as (Hc & d & Hd & Hs). rewrite <- Hc in Hs. destruct (a_sets_shaped h' o l d Hd Hs) as (d' & Hd' & Hs'). rewrite Hc in Hs'.
  unfold call_dm. rewrite Hd'. assert (Eb : (dm_nr d' =? 1) && (dm_nc d' =? 1) && negb (cs_size c =? 1) = false).
  { destruct Hs' as [-> _]. destruct (cs_size c =? 1); cbn; [now rewrite andb_false_r|reflexivity]. }
  rewrite Eb. destruct o as [oc k]. cbn [ao_c ao_ref] in *. subst oc. now apply (dm_struct_iff nan _ c k d' Hd').
Qed.
End Inv.

(** Examples: an assignment that is refused after having changed an element: the rest is untouched. *)
Example entry_local_example : Wf ex3 /\ casadi_structure ex3 = Ok ex3_c /\
  exists st' e, setitem 0%Z ex3 (num_env ex3_c) [PStr "x"] (PayList [PayNum 9%Z; PayNum 8%Z]) (PState [1; 2; 3; 4; 5; 6; 7]%Z [] []) = (st', Err e) /\
  ps_master st' = [9; 8; 3; 4; 5; 6; 7]%Z.
Proof. split; [exact ex3_Wf|]. split; [vm_compute; reflexivity|]. eexists. eexists. split; vm_compute; reflexivity. Qed.
Example cat_example : exists h' o, call_dm 0%Z (-1)%Z [] ex3_c (AVal (dm_scalar 5%Z)) = Ok (h', o) /\
  a_cat 0%Z (a_sets 0%Z h' o [([PStr "x"; PInt 0], PayNum 42%Z)]) o = [42; 5; 5; 5; 5; 5; 5]%Z.
Proof. eexists. eexists. split; vm_compute; reflexivity. Qed.

