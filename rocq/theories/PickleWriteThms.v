(** Assignments to a structure object restored from a pickle, symmetric entries included (C33). *)
From Verif Require Import PyBase IndexModel DMModel StructModel StructSpec PowerModel PowerSpec
  IndexProofs StructProofs LayoutProofs LayoutThms LayoutExamples DMProofs PowerProofs PowerThms SliceProofs PowerThms2 PowerThms3 PowerThms4 PowerThms5
  EntryModel EntrySpec EntryProofs StructsModel StructsSpec StructsThms1 StructsThms2 StructsThms3 StructsThms4 StructsThms5 StructsThms10.
Open Scope nat_scope.

Section P.
Context {T : Type} (zero : T).
Notation rval := (rval T).
Notation pel := (pel T).
Notation pay := (pay T).
Notation env := (env T).
Notation pstate := (pstate T).
Notation einfo := (einfo T).
Notation clos := (@clos T).

(** [m'] does what [m] does, or raises. *)
Definition mle {A} (m m' : @M T A) : Prop := forall st, m' st = m st \/ exists x, snd (m' st) = Err x.
Lemma mle_eq {A} (m m' : @M T A) : meq m m' -> mle m m'.
Proof. intros H st. left. symmetry. apply H. Qed.
Lemma mle_refl {A} (m : @M T A) : mle m m.
Proof. intros st. now left. Qed.
Lemma mle_bind {A B} (m m' : @M T A) (k k' : A -> @M T B) : mle m m' -> (forall a, mle (k a) (k' a)) -> mle (mbind m k) (mbind m' k').
Proof.
  intros H Hk st. unfold mbind. destruct (H st) as [->|(x & Hx)].
  - destruct (m st) as [s [a|e]]; [apply Hk|now left].
  - right. destruct (m' st) as [s [a|e]]; [discriminate|]. eexists; reflexivity.
Qed.
Lemma mle_bind_lift {A B} (r : res A) (k k' : A -> @M T B) : (forall a, r = Ok a -> mle (k a) (k' a)) -> mle (mbind (mlift r) k) (mbind (mlift r) k').
Proof. intros H st. unfold mbind, mlift. destruct r; [now apply H|now left]. Qed.
Lemma mle_wrap {A} (m m' : @M T A) : mle m m' -> mle (mwrap m) (mwrap m').
Proof.
  intros H st. unfold mwrap. destruct (H st) as [->|(x & Hx)]; [now left|]. right. destruct (m' st) as [s [a|e]]; [discriminate|]. eexists; reflexivity.
Qed.
Lemma mle_mmapM {A A' B} (R : A -> A' -> Prop) (f : A -> @M T B) (f' : A' -> @M T B) l l' : Forall2 R l l' -> (forall a a', R a a' -> mle (f a) (f' a')) -> mle (mmapM f l) (mmapM f' l').
Proof.
  intros HF H. induction HF as [|a a' l l' Ha HF IH]; [apply mle_refl|]. simpl. apply mle_bind; [now apply H|]. intros b. apply mle_bind; [exact IH|]. intros; apply mle_refl.
Qed.
Lemma mle_mmapM_same {A B} (f f' : A -> @M T B) l : (forall a, mle (f a) (f' a)) -> mle (mmapM f l) (mmapM f' l).
Proof. intros H. apply (mle_mmapM eq); [induction l; constructor; auto|]. intros a _ <-. apply H. Qed.
Lemma mle_mdict (m m' : @M T (list (string * rval))) : mle m m' -> mle (mdict m) (mdict m').
Proof. intros H. apply mle_bind; [exact H|]. intros; apply mle_refl. Qed.

(** The setter of an entry without 'originalsparsity'. *)
Lemma setter_pickled (en : env) p ci ex e e' M st : oieq e e' -> is_symm e = true -> (match e' with Some i => ei_orig i | None => None end) = None -> to_mtype p = Ok M ->
  setter zero en p ci ex e' st = (if dm_is_scalar M then setter zero en p ci ex e st else (st, snd (setter zero en p ci ex e' st))) /\
  (dm_is_scalar M = false -> exists x, snd (setter zero en p ci ex e' st) = Err x).
Proof.
  intros H Hs Ho HM. assert (E : is_symm e' = true). { destruct e as [e|], e' as [e'|]; simpl in *; try tauto. destruct H as [-> _]. exact Hs. }
  unfold setter, mbind, mlift. rewrite HM, E, Hs. destruct (cmap_get ci (en_map en)) as [mi|]; [|destruct (dm_is_scalar M); (split; [reflexivity|intros _; eexists; reflexivity])].
  rewrite !(pei_eq e e') by exact H.
  destruct (performExtraIndex e false (RIdx mi) (extra ex)) as [[]|] eqn:E1; try (destruct (dm_is_scalar M); (split; [reflexivity|intros _; eexists; reflexivity])).
  destruct (performExtraIndex e true (RIdx mi) (extra ex)) as [[]|] eqn:E2; try (destruct (dm_is_scalar M); (split; [reflexivity|intros _; eexists; reflexivity])).
  destruct (dm_is_scalar M); [split; [reflexivity|discriminate]|]. rewrite Ho. split; [reflexivity|intros _; eexists; reflexivity].
Qed.

Lemma mle_dispatch (en : env) md p ci ex e e' : oieq e e' -> (match e' with Some i => ei_orig i | None => None end) = None -> md <> MInject ->
  mle (dispatch zero en md p ci ex e) (dispatch zero en md p ci ex e').
Proof.
  intros H Ho Hm. destruct (is_symm e) eqn:Hs; [|apply mle_eq, meq_dispatch; auto].
  destruct md; try (apply mle_eq, meq_dispatch; auto; discriminate). intros st. cbn [dispatch].
  destruct (to_mtype p) as [M|x] eqn:HM; [|left; unfold setter, mbind, mlift; rewrite HM; reflexivity].
  destruct (setter_pickled en p ci ex e e' M st H Hs Ho HM) as [E1 E2]. destruct (dm_is_scalar M); [left; exact E1|right; auto].
Qed.

Definition cle (f f' : clos) : Prop := forall en md pi ci p, md <> MInject -> mle (f en md pi ci p) (f' en md pi ci p).
Lemma inner_ok md md' : md <> MInject -> inner md = Ok md' -> md' <> MInject.
Proof. destruct md; simpl; try congruence; intros _ [= <-]; discriminate. Qed.

Lemma mle_travD (en : env) (e e' : einfo) (sub sub' : option clos) : ieq e e' -> ei_orig e' = None ->
  match sub, sub' with Some f, Some f' => cle f f' | None, None => True | _, _ => False end ->
  forall dims md pi ci p, md <> MInject -> mle (travD zero en e sub dims md pi ci p) (travD zero en e' sub' dims md pi ci p).
Proof.
  intros He Ho Hsub. induction dims as [|d ds IH]; intros md pi ci p Hm.
  - simpl. apply mle_wrap. destruct pi; [now apply mle_dispatch|].
    destruct sub, sub'; try tauto; [now apply Hsub|now apply mle_dispatch].
  - cbn [travD].
    assert (Hmany : forall md ci p l rest, md <> MInject -> mle (rs <- mmapM (fun k => match k with
                     | KS _ => merr EType
                     | KI i => p' <- mlift (payloadUnpack p k) ;;
                               travD zero en e sub ds md rest (ci ++ [KI (canonical i d)]) p'
                     end) l ;; mret (RList rs)) (rs <- mmapM (fun k => match k with
                     | KS _ => merr EType
                     | KI i => p' <- mlift (payloadUnpack p k) ;;
                               travD zero en e' sub' ds md rest (ci ++ [KI (canonical i d)]) p'
                     end) l ;; mret (RList rs))).
    { intros md' ci' p' l rest Hm'. apply mle_bind; [|intros; apply mle_refl]. apply mle_mmapM_same. intros [|]; [apply mle_refl|].
      apply mle_bind_lift. intros. now apply IH. }
    revert md ci p Hm. induction pi as [|a rest IHp]; intros md ci p Hm; apply mle_wrap.
    + apply mle_bind_lift. intros. now apply Hmany.
    + destruct a; try apply mle_refl; try (now apply Hmany).
      * now apply IH.
      * apply mle_bind_lift. intros. now apply Hmany.
      * apply mle_bind_lift. intros md' E. apply mle_bind; [apply IHp; eapply inner_ok; eauto|]. intros r. apply mle_refl.
Qed.

Definition dle (d d' : list (string * clos)) : Prop := Forall2 (fun x y => fst y = fst x /\ cle (snd x) (snd y)) d d'.
Lemma dle_look d d' k : dle d d' -> match dict_get k d, dict_get k d' with Some f, Some f' => cle f f' | None, None => True | _, _ => False end.
Proof.
  intros H. induction H as [|[a f] [b g] d d' [E Hc] _ IH]; [exact I|]. simpl in *. subst b. destruct (String.eqb k a); assumption.
Qed.
Lemma mle_look_bind {B} d d' k (g g' : clos -> @M T B) : dle d d' -> (forall f f', cle f f' -> mle (g f) (g' f')) ->
  mle (mbind (look d k) g) (mbind (look d' k) g').
Proof.
  intros H Hg. pose proof (dle_look d d' k H) as L. unfold look. destruct (dict_get k d), (dict_get k d'); try tauto; [|apply mle_refl]. exact (Hg _ _ L).
Qed.
Lemma dle_set k f f' d d' : dle d d' -> cle f f' -> dle (dict_set k f d) (dict_set k f' d').
Proof.
  intros H Hf. induction H as [|[a g] [b g'] d d' [E Hc] H IH]; [constructor; [split; [reflexivity|exact Hf]|constructor]|]. cbn [fst snd] in E, Hc. subst. cbn [dict_set fst snd].
  destruct (String.eqb k a); constructor; auto; split; auto.
Qed.
Lemma dle_pydict l l' : dle l l' -> dle (pydict l) (pydict l').
Proof.
  unfold pydict. assert (G : forall d d', dle d d' -> dle l l' -> dle (fold_left (fun d kv => dict_set (fst kv) (snd kv) d) l d) (fold_left (fun d kv => dict_set (fst kv) (snd kv) d) l' d')).
  { revert l'. induction l as [|[a f] l IH]; intros l' d d' Hd Hl; inversion Hl as [|x [b g] ? ? [E Hc] Hr]; subst; [exact Hd|]. cbn [fst snd fold_left] in *. subst. apply IH; auto. now apply dle_set. }
  apply G. constructor.
Qed.

Lemma mle_travS_body d d' keys : dle d d' -> cle (travS_body zero d keys) (travS_body zero d' keys).
Proof.
  intros Hd en md pi.
  assert (Hdict : forall md ci p rest, md <> MInject ->
     mle (match p with
    | PayDict kv =>
        mdict (mmapM (fun x => f <- look d (fst x) ;;
                               r <- f en md rest (ci ++ [KS (fst x)]) (snd x) ;; mret (fst x, r)) kv)
    | _ =>
        mdict (mmapM (fun x => r <- snd x en md rest (ci ++ [KS (fst x)]) p ;; mret (fst x, r)) d)
    end) (match p with
    | PayDict kv =>
        mdict (mmapM (fun x => f <- look d' (fst x) ;;
                               r <- f en md rest (ci ++ [KS (fst x)]) (snd x) ;; mret (fst x, r)) kv)
    | _ =>
        mdict (mmapM (fun x => r <- snd x en md rest (ci ++ [KS (fst x)]) p ;; mret (fst x, r)) d')
    end)).
  { intros md' ci p rest Hm. destruct p; apply mle_mdict;
      try (eapply mle_mmapM; [exact Hd|]; intros [k f] [k' f'] [E Hc]; simpl in E; subst k'; cbn [fst snd] in *; apply mle_bind; [now apply Hc|]; intros; apply mle_refl).
    apply mle_mmapM_same. intros [k v]. eapply mle_look_bind; [exact Hd|]. intros f f' Hf. apply mle_bind; [now apply Hf|]. intros; apply mle_refl. }
  revert md. induction pi as [|a rest IH]; intros md ci p Hm; cbn [travS_body]; apply mle_wrap.
  - apply mle_refl.
  - destruct a; try apply mle_refl; try (now apply Hdict).
    + eapply mle_look_bind; [exact Hd|]. intros f f' Hf. now apply Hf.
    + apply mle_bind; [|intros; apply mle_refl]. apply mle_mmapM_same. intros [i k]. apply mle_bind_lift. intros. now apply IH.
    + apply mle_bind; [|intros; apply mle_refl]. apply mle_mmapM_same. intros [i k]. eapply mle_look_bind; [exact Hd|]. intros f f' Hf.
      apply mle_bind_lift. intros. now apply Hf.
    + destruct p; apply mle_mdict, mle_mmapM_same; intros z; (eapply mle_look_bind; [exact Hd|]); intros f f' Hf; (apply mle_bind; [now apply Hf|]); intros; apply mle_refl.
    + apply mle_bind_lift. intros md' E. apply mle_bind; [apply IH; eapply inner_ok; eauto|]. intros r. apply mle_refl.
Qed.

Lemma info_pickle e : ieq (info zero e) (info zero (pickle_e e)) /\ ei_orig (info zero (pickle_e e)) = None.
Proof.
  destruct (pickle_fields e) as (_ & _ & _ & Esy & Eor & _ & Esh). split; [|exact Eor]. split; [exact Esy|]. unfold info. cbn [ei_del]. rewrite Esh.
  destruct (e_shape e) as [l|] eqn:El; [|exact I]. cbn [option_map]. rewrite map_map. clear. induction l as [|d l IH]; constructor; [|exact IH].
  destruct d as [s'|k]; [|exact I]. cbn. intros b arg. apply index_getter_eq, meq_travS.
Qed.

Lemma mle_travS s : cle (travS zero s) (travS zero (pickle_s s)).
Proof.
  induction s as [es order IH1 _] using structure_ind2. intros en md pi ci p Hm.
  rewrite !travS_eq. unfold s_keys. rewrite pickle_order. refine (mle_travS_body _ _ _ _ en md pi ci p Hm). unfold sdictT. rewrite pickle_entries, map_map. apply dle_pydict.
  clear en md pi ci p Hm. unfold dle. cbn [s_entries s_order].
  assert (G : forall e, In e es -> cle (travE zero e) (travE zero (pickle_e e))).
  { intros e He en md pi ci p Hm. rewrite !travE_eq. destruct (pickle_fields e) as (_ & -> & _ & Esy & Eor & Est & Esh). destruct (info_pickle e) as [Hi Ho].
    apply mle_travD; auto. unfold subT. rewrite Est. destruct (e_struct e) as [s'|] eqn:Es'; [|exact I]. cbn [option_map]. exact (IH1 e s' He Es'). }
  clear IH1. induction es as [|e es IH]; [constructor|]. cbn [map].
  constructor; [cbn [fst snd]; split; [apply pickle_name|apply G; now left]|]. apply IH. intros; apply G; now right.
Qed.

Lemma unpickled s c (v : list T) o' : Wf s -> casadi_structure s = Ok c -> length v = cs_size c -> unpickle_obj (plain_obj c v) = Ok o' ->
  cs_struct c = s /\ o' = SObj (repickle c) (Env (cs_map c) [] KPlain []) (PState v [] []).
Proof.
  intros Hw Hc Hl Hu. assert (Ec : cs_struct c = s). { destruct (casadi_structure_ok s Hw) as (c0 & E0 & H0 & _). congruence. }
  split; [exact Ec|]. destruct (unpickle_layout zero s c Hw Hc) as (c' & Hc' & _).
  assert (E' : c' = repickle c).
  { unfold unpickle in Hc'. destruct (structure_init (map pickle_e (s_entries s)) (Some (s_order s))) as [s1|] eqn:Es1; [|discriminate]. cbn [rbind] in Hc'.
    unfold structure_init in Es1. destruct (forallb _ _); [|discriminate]. injection Es1 as <-.
    replace (mkStruct (map pickle_e (s_entries s)) (s_order s)) with (pickle_s s) in Hc' by (destruct s; reflexivity).
    rewrite pickle_casadi, Hc in Hc'. cbn in Hc'. congruence. }
  unfold unpickle_obj in Hu. cbn [plain_obj so_c] in Hu. rewrite Ec, Hc', E' in Hu. cbn [rbind] in Hu. cbn [plain_obj so_cat so_st ps_master repickle cs_size] in Hu.
  rewrite Hl, Nat.eqb_refl in Hu. cbn [negb] in Hu. injection Hu as <-. reflexivity.
Qed.

(** Whatever the restored object accepts, it does as the original one. *)
Theorem restored_accepts s c (v : list T) o' pi p r : Wf s -> casadi_structure s = Ok c -> length v = cs_size c ->
  unpickle_obj (plain_obj c v) = Ok o' -> snd (so_set zero o' pi p) = Ok r ->
  snd (so_set zero (plain_obj c v) pi p) = Ok r /\ so_cat (fst (so_set zero (plain_obj c v) pi p)) = so_cat (fst (so_set zero o' pi p)).
Proof.
  intros Hw Hc Hl Hu Hr. destruct (unpickled s c v o' Hw Hc Hl Hu) as [Ec ->]. revert Hr.
  unfold so_set, setitem, plain_obj. cbn [so_c so_env so_st repickle cs_struct cs_map]. rewrite Ec. unfold num_env.
  destruct (mle_travS s (Env (cs_map c) [] KPlain []) MSet pi [] p ltac:(discriminate) (PState v [] [])) as [->|(x & Hx)].
  - destruct (travS zero s _ MSet pi [] p _) as [st [r0|e]]; cbn; intros [= <-]; auto.
  - destruct (travS zero (pickle_s s) _ MSet pi [] p _) as [st [r0|e]]; [discriminate|]. cbn. discriminate.
Qed.

(** Assignments to a symmetric entry or to elements of it: scalars as before, anything else raises and changes nothing. *)
Lemma At_pickle s ci e : At s ci e -> At (pickle_s s) ci (pickle_e e).
Proof.
  induction 1 as [s e idx He Hd|s e idx s' ci e' He Es Hd Ha IH].
  - rewrite <- (pickle_name e). destruct (pickle_fields e) as (_ & Ed & _). apply At_here; [rewrite pickle_entries; now apply in_map|]. now rewrite Ed.
  - rewrite <- (pickle_name e). destruct (pickle_fields e) as (_ & Ed & _ & _ & _ & Est & _). apply (At_sub _ _ _ (pickle_s s')); [rewrite pickle_entries; now apply in_map| | |exact IH].
    + now rewrite Est, Es.
    + now rewrite Ed.
Qed.
Theorem restored_symm s c (v : list T) o' ci e ex p M : Wf s -> casadi_structure s = Ok c -> length v = cs_size c ->
  unpickle_obj (plain_obj c v) = Ok o' -> At s ci e -> e_symm e = true -> e_struct e = None -> to_mtype p = Ok M ->
  (dm_is_scalar M = true ->
     snd (so_set zero o' (pidx ci ++ ex) p) = snd (so_set zero (plain_obj c v) (pidx ci ++ ex) p) /\
     so_cat (fst (so_set zero o' (pidx ci ++ ex) p)) = so_cat (fst (so_set zero (plain_obj c v) (pidx ci ++ ex) p))) /\
  (dm_is_scalar M = false ->
     snd (so_set zero o' (pidx ci ++ ex) p) = Err EException /\ so_cat (fst (so_set zero o' (pidx ci ++ ex) p)) = v).
Proof.
  intros Hw Hc Hl Hu Ha Hs Hst HM. destruct (unpickled s c v o' Hw Hc Hl Hu) as [Ec ->].
  assert (Hw' : Wf (pickle_s s)).
  { clear -Hw. induction s as [es order IH _] using structure_ind2. inversion Hw as [es0 o0 H1 H2 H3 H4]; subst. cbn [pickle_s]. fold pickle_e.
    constructor.
    - rewrite map_map. erewrite map_ext; [exact H1|]. intros; apply pickle_name.
    - rewrite map_map. erewrite (map_ext (fun x => e_name (pickle_e x))); [exact H2|]. intros; apply pickle_name.
    - intros e He. apply in_map_iff in He as (e0 & <- & He0). destruct (pickle_fields e0) as (_ & _ & -> & _). auto.
    - intros e s' He Es. apply in_map_iff in He as (e0 & <- & He0). destruct (pickle_fields e0) as (_ & _ & _ & _ & _ & E & _). rewrite E in Es.
      destruct (e_struct e0) as [s0|] eqn:E0; [|discriminate]. injection Es as <-. eapply IH; eauto. }
  destruct (info_pickle e) as [Hi Ho]. destruct (pickle_fields e) as (_ & _ & _ & _ & _ & Est & _).
  unfold so_set, setitem, plain_obj. cbn [so_c so_env so_st repickle cs_struct cs_map]. rewrite Ec. unfold num_env.
  rewrite (travS_at zero s ci e Ha Hw), (travS_at zero (pickle_s s) ci (pickle_e e) (At_pickle _ _ _ Ha) Hw').
  unfold endD, subT. rewrite Est, Hst. cbn [option_map].
  set (en := Env (cs_map c) [] KPlain []).
  assert (G : forall ex0, mwrap (dispatch zero en MSet p ci ex0 (Some (info zero (pickle_e e)))) (PState v [] []) =
     if dm_is_scalar M then mwrap (dispatch zero en MSet p ci ex0 (Some (info zero e))) (PState v [] []) else (PState v [] [], Err EException)).
  { intros ex0. unfold mwrap. cbn [dispatch].
    destruct (setter_pickled en p ci ex0 (Some (info zero e)) (Some (info zero (pickle_e e))) M (PState v [] []) Hi Hs Ho HM) as [E1 E2].
    destruct (dm_is_scalar M); rewrite E1; [reflexivity|]. destruct (E2 eq_refl) as (x & ->). reflexivity. }
  destruct ex as [|a ex]; rewrite G; destruct (dm_is_scalar M); (split; [try discriminate; intros _|try discriminate; intros _]).
  - destruct (mwrap _ _); auto.
  - auto.
  - destruct (mwrap _ _); auto.
  - auto.
Qed.
End P.
