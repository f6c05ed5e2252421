(** Two dispatchers traverse a structure in the same way: what one returns is the image of what
    the other returns. *)
From Verif Require Import PyBase IndexModel DMModel StructModel StructSpec PowerModel PowerSpec ReadSpec
  IndexProofs StructProofs LayoutProofs LayoutThms LayoutExamples DMProofs PowerProofs PowerThms.

Definition ok {A} (r : res A) : option A := match r with Ok a => Some a | Err _ => None end.
Definition obind {A B} (f : A -> option B) (o : option A) : option B := match o with Some a => f a | None => None end.
Section O.
Context {A B : Type} (f : A -> option B).
Fixpoint omapM (l : list A) : option (list B) :=
  match l with
  | [] => Some []
  | a :: l' => obind (fun b => option_map (cons b) (omapM l')) (f a)
  end.
End O.

Lemma ok_Some {A} (r : res A) a : ok r = Some a <-> r = Ok a.
Proof. destruct r; simpl; split; congruence. Qed.

Lemma ok_rmapM {A B C} (f : A -> res B) (g : A -> res C) (h : B -> option C) l :
  (forall a, In a l -> ok (g a) = obind h (ok (f a))) -> ok (rmapM g l) = obind (omapM h) (ok (rmapM f l)).
Proof.
  induction l as [|a l IH]; intros H; [reflexivity|]. simpl. specialize (H a (or_introl eq_refl)) as Ha.
  specialize (IH (fun b Hb => H b (or_intror Hb))). destruct (f a) as [b|], (g a) as [c|]; simpl in *; try discriminate; try reflexivity.
  - destruct (rmapM f l) as [bs|], (rmapM g l) as [cs|]; simpl in *; rewrite <- ?Ha; simpl; rewrite <- ?IH; try reflexivity; discriminate.
  - destruct (rmapM f l) as [bs|]; simpl; [|reflexivity]. now rewrite <- Ha.
Qed.

Section P.
Context {T : Type} (zero : T).
Notation rval := (rval T).
Notation env := (env T).
Notation pstate := (pstate T).
Notation clos := (@clos T).

Section S.
Context (md1 md2 : mode) (P1 : pure_mode md1 = true) (P2 : pure_mode md2 = true) (st1 st2 : pstate) (en : env).
Context (h : rval -> option rval).
Context (hlist : forall l, h (RList l) = option_map RList (omapM h l)).
Context (hdict : forall l, h (RDict l) = option_map RDict (omapM (fun kv => option_map (pair (fst kv)) (h (snd kv))) l)).
Context (good : option (einfo T) -> Prop) (good0 : good None).
Context (hdisp : forall ci ex ei, good ei -> no_fun (extra ex) ->
  ok (snd (dispatch zero en md2 PayNone ci ex ei st2)) = obind h (ok (snd (dispatch zero en md1 PayNone ci ex ei st1)))).

Definition sim (m1 m2 : @M T rval) : Prop := ok (snd (m2 st2)) = obind h (ok (snd (m1 st1))).

Lemma sim_wrap m1 m2 : sim m1 m2 -> sim (mwrap m1) (mwrap m2).
Proof.
  unfold sim, mwrap. destruct (m1 st1) as [? [?|]], (m2 st2) as [? [?|]]; simpl; auto.
Qed.
Lemma sim_err e e' : sim (merr e) (merr e').
Proof. reflexivity. Qed.
Lemma sim_bind_lift {A} (r : res A) k k' : (forall a, r = Ok a -> sim (k a) (k' a)) -> sim (mbind (mlift r) k) (mbind (mlift r) k').
Proof. intros H. unfold sim, mbind, mlift. destruct r as [a|]; [now apply H|reflexivity]. Qed.
Lemma sim_look (d : list (string * clos)) k g g' : (forall f, In (k, f) d -> sim (g f) (g' f)) -> sim (mbind (look d k) g) (mbind (look d k) g').
Proof.
  intros H. unfold look. destruct (dict_get k d) as [f|] eqn:E; [|reflexivity]. unfold sim. rewrite !mbind_ret. apply H. now apply dict_get_In.
Qed.

Lemma sim_list {A} (f1 f2 : A -> @M T rval) l : (forall a, In a l -> pure (f1 a)) -> (forall a, In a l -> pure (f2 a)) ->
  (forall a, In a l -> sim (f1 a) (f2 a)) -> sim (rs <- mmapM f1 l ;; mret (RList rs)) (rs <- mmapM f2 l ;; mret (RList rs)).
Proof.
  intros Q1 Q2 H. unfold sim, mbind. rewrite !mmapM_pure by assumption.
  pose proof (ok_rmapM (fun a => snd (f1 a st1)) (fun a => snd (f2 a st2)) h l H) as E.
  destruct (rmapM (fun a => snd (f1 a st1)) l) as [rs|], (rmapM (fun a => snd (f2 a st2)) l) as [rs'|]; simpl in *; rewrite ?hlist, <- ?E; try reflexivity; discriminate.
Qed.

Lemma sim_dict {A} (f1 f2 : A -> @M T rval) (key : A -> string) l : NoDup (map key l) ->
  (forall a, In a l -> pure (f1 a)) -> (forall a, In a l -> pure (f2 a)) -> (forall a, In a l -> sim (f1 a) (f2 a)) ->
  sim (mdict (mmapM (fun a => r <- f1 a ;; mret (key a, r)) l)) (mdict (mmapM (fun a => r <- f2 a ;; mret (key a, r)) l)).
Proof.
  intros Hnd Q1 Q2 H. unfold sim, mdict, mbind at 1 3.
  assert (R : forall f : A -> @M T rval, (forall a, In a l -> pure (f a)) -> forall a, In a l -> pure (r <- f a ;; @mret T _ (key a, r))) by (intros; apply pure_bind; [auto|intros; apply pure_ret]).
  rewrite !mmapM_pure by now apply R.
  set (g1 := fun a => snd ((r <- f1 a ;; mret (key a, r)) st1)). set (g2 := fun a => snd ((r <- f2 a ;; mret (key a, r)) st2)).
  assert (E : ok (rmapM g2 l) = obind (omapM (fun kv => option_map (pair (fst kv)) (h (snd kv)))) (ok (rmapM g1 l))).
  { apply ok_rmapM. intros a Ha. specialize (H a Ha). unfold sim in H. unfold g1, g2, mbind. destruct (f1 a st1) as [? [?|]], (f2 a st2) as [? [?|]]; simpl in *; rewrite <- ?H; try reflexivity; discriminate. }
  assert (K : forall g s (f : A -> @M T rval) L, (forall a, g a = snd ((r <- f a ;; mret (key a, r)) s)) -> rmapM g l = Ok L -> map fst L = map key l).
  { intros g s f L Hg HL. clear -Hg HL. revert L HL. induction l as [|a l IH]; intros L HL; simpl in HL; [injection HL as <-; reflexivity|].
    rewrite Hg in HL. unfold mbind in HL. destruct (f a s) as [? [r|]]; simpl in HL; [|discriminate]. destruct (rmapM g l) as [L'|]; simpl in HL; [|discriminate]. injection HL as <-. simpl. f_equal. now apply IH. }
  destruct (rmapM g1 l) as [L1|] eqn:E1, (rmapM g2 l) as [L2|] eqn:E2; simpl in *; try discriminate; try reflexivity.
  - rewrite (pydict_id L1) by (rewrite (K g1 st1 f1 L1 (fun _ => eq_refl) E1); exact Hnd).
    rewrite (pydict_id L2) by (rewrite (K g2 st2 f2 L2 (fun _ => eq_refl) E2); exact Hnd). rewrite hdict, <- E. reflexivity.
  - rewrite pydict_id by (rewrite (K g1 st1 f1 L1 (fun _ => eq_refl) E1); exact Hnd). now rewrite hdict, <- E.
Qed.

Definition sclos (f : clos) : Prop := forall pi ci, no_fun pi -> sim (f en md1 pi ci PayNone) (f en md2 pi ci PayNone).

Lemma sim_travD ei sub : good (Some ei) -> (forall f, sub = Some f -> sclos f /\ pclos f) -> forall dims pi ci, no_fun pi ->
  sim (travD zero en ei sub dims md1 pi ci PayNone) (travD zero en ei sub dims md2 pi ci PayNone).
Proof.
  intros Hg Hsub. induction dims as [|d ds IH]; intros pi ci Hnf.
  - simpl. apply sim_wrap. destruct pi; [now apply hdisp|]. destruct sub as [f|]; [now apply (Hsub f eq_refl)|now apply hdisp].
  - cbn [travD].
    assert (Hmany : forall l rest, no_fun rest ->
       sim (rs <- mmapM (fun k => match k with
                     | KS _ => merr EType
                     | KI i => p' <- mlift (payloadUnpack PayNone k) ;;
                               travD zero en ei sub ds md1 rest (ci ++ [KI (canonical i d)]) p'
                     end) l ;; mret (RList rs))
           (rs <- mmapM (fun k => match k with
                     | KS _ => merr EType
                     | KI i => p' <- mlift (payloadUnpack PayNone k) ;;
                               travD zero en ei sub ds md2 rest (ci ++ [KI (canonical i d)]) p'
                     end) l ;; mret (RList rs))).
    { intros l rest Hr. apply sim_list.
      - intros [n|i] _; [apply pure_err|]. apply pure_bind; [apply pure_lift|]. intros. apply pure_travD; [|assumption]. intros f Hf. now apply (Hsub f Hf).
      - intros [n|i] _; [apply pure_err|]. apply pure_bind; [apply pure_lift|]. intros. apply pure_travD; [|assumption]. intros f Hf. now apply (Hsub f Hf).
      - intros [n|i] _; [apply sim_err|]. apply sim_bind_lift. intros a [= <-]. now apply IH. }
    destruct pi as [|x rest]; apply sim_wrap.
    + apply sim_bind_lift. intros l _. apply Hmany. constructor.
    + apply Forall_cons_iff in Hnf as [Hx Hr]. destruct x; try apply sim_err; try (now apply Hmany).
      * now apply IH.
      * apply sim_bind_lift. intros l _. now apply Hmany.
      * apply Hmany. constructor; [exact I|constructor].
      * destruct Hx.
Qed.

Lemma mmapM_ext {A B} (f g : A -> @M T B) l st : (forall a s, f a s = g a s) -> mmapM f l st = mmapM g l st.
Proof. intros H. apply mmapM_eq. auto. Qed.

Lemma sim_ext m1 m2 n1 n2 : m1 st1 = n1 st1 -> m2 st2 = n2 st2 -> sim n1 n2 -> sim m1 m2.
Proof. unfold sim. now intros -> ->. Qed.

Lemma sim_travS_body d keys : NoDup (map fst d) -> (forall k f, In (k, f) d -> sclos f /\ pclos f) -> forall pi ci, no_fun pi ->
  sim (travS_body zero d keys en md1 pi ci PayNone) (travS_body zero d keys en md2 pi ci PayNone).
Proof.
  intros Hnd Hd. induction pi as [|x rest IH]; intros ci Hnf; cbn [travS_body]; apply sim_wrap.
  - apply hdisp; [exact good0|constructor].
  - apply Forall_cons_iff in Hnf as [Hx Hr].
    assert (Hdict : forall rest, no_fun rest -> sim
        (mdict (mmapM (fun x => r <- snd x en md1 rest (ci ++ [KS (fst x)]) PayNone ;; mret (fst x, r)) d))
        (mdict (mmapM (fun x => r <- snd x en md2 rest (ci ++ [KS (fst x)]) PayNone ;; mret (fst x, r)) d))).
    { clear rest IH Hr. intros rest Hr. apply (sim_dict (fun x => snd x en md1 rest (ci ++ [KS (fst x)]) PayNone) (fun x => snd x en md2 rest (ci ++ [KS (fst x)]) PayNone) fst); [exact Hnd|..].
      - intros [k f] Hin. now apply (Hd k f).
      - intros [k f] Hin. now apply (Hd k f).
      - intros [k f] Hin. now apply (Hd k f). }
    destruct x; try apply sim_err; try (now apply Hdict).
    + apply sim_look. intros f Hf. now apply (Hd _ _ Hf).
    + assert (Hb : forall md, pure_mode md = true -> forall a : Z * ck, pure (p' <- mlift (payloadUnpack PayNone (KI (fst a))) ;; travS_body zero d keys en md rest (ci ++ [snd a]) p')).
      { intros md Hm a. apply pure_bind; [apply pure_lift|]. intros. apply pure_travS_body; [|exact Hm]. intros k' f' Hin. now apply (Hd k' f'). }
      apply sim_list; auto. intros [i k] _. apply sim_bind_lift. intros a [= <-]. now apply IH.
    + assert (Hb : forall md, pure_mode md = true -> forall a : Z * string, pure (f <- look d (snd a) ;; p' <- mlift (payloadUnpack PayNone (KI (fst a))) ;; f en md rest (ci ++ [KS (snd a)]) p')).
      { intros md Hm a. apply pure_look_bind. intros f Hf. apply pure_bind; [apply pure_lift|]. intros. now apply (Hd _ _ Hf). }
      apply sim_list; auto. intros [i k] _. apply sim_look. intros f Hf. apply sim_bind_lift. intros a [= <-]. now apply (Hd _ _ Hf).
    + assert (Hb : forall md, pure_mode md = true -> forall k, pure (f <- look d k ;; f en md rest (ci ++ [KS k]) PayNone)).
      { intros md Hm k. apply pure_look_bind. intros f Hf. now apply (Hd _ _ Hf). }
      eapply sim_ext; [| |apply (sim_dict (fun k => f <- look d k ;; f en md1 rest (ci ++ [KS k]) PayNone) (fun k => f <- look d k ;; f en md2 rest (ci ++ [KS k]) PayNone) (fun k => k) l); auto].
      * unfold mdict, mbind at 1 4. erewrite mmapM_ext; [reflexivity|]. intros k s. unfold look, mbind. destruct (dict_get k d); reflexivity.
      * unfold mdict, mbind at 1 4. erewrite mmapM_ext; [reflexivity|]. intros k s. unfold look, mbind. destruct (dict_get k d); reflexivity.
      * rewrite map_id. exact Hx.
      * intros k _. apply sim_look. intros f Hf. now apply (Hd _ _ Hf).
    + apply Hdict. repeat constructor.
    + destruct Hx.
Qed.

(** Every entry, at every depth, satisfies [good]. *)
Inductive Good : structure -> Prop :=
| Good_intro : forall es order, (forall e, In e es -> good (Some (info zero e))) ->
    (forall e s', In e es -> e_struct e = Some s' -> Good s') -> Good (mkStruct es order).

Lemma sim_travS s : Good s -> sclos (travS zero s).
Proof.
  intros HG. induction HG as [es order Hg HG IH]. intros pi ci Hnf. eapply sim_ext; [now rewrite travS_eq|now rewrite travS_eq|].
  apply sim_travS_body; [apply NoDup_pydict| |exact Hnf]. intros k f Hin. unfold sdictT in Hin. apply in_pydict in Hin. simpl in Hin.
  apply in_map_iff in Hin as (e & [= <- <-] & He).
  assert (Hsub : forall f, subT zero e = Some f -> sclos f /\ pclos f).
  { unfold subT. intros f. destruct (e_struct e) as [s'|] eqn:Es; [|discriminate]. intros [= <-]. split; [eapply IH; eauto|apply pure_travS]. }
  split.
  - intros pi' ci' Hp'. eapply sim_ext; [now rewrite travE_eq|now rewrite travE_eq|]. apply sim_travD; auto.
  - intros en' md' pi' ci' p' Hm'. rewrite travE_eq. apply pure_travD; [|exact Hm']. intros f Hf. now apply Hsub.
Qed.
End S.
End P.
