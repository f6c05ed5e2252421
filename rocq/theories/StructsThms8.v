(** Sub-structures at any power index: prefix views and repeated (C31, C32). *)
From Verif Require Import PyBase IndexModel DMModel StructModel StructSpec PowerModel PowerSpec
  IndexProofs StructProofs LayoutProofs LayoutThms LayoutExamples DMProofs PowerProofs PowerThms SliceProofs PowerThms2 PowerThms3 PowerThms4 PowerThms5
  EntryModel EntrySpec EntryProofs StructsModel StructsSpec StructsThms1 StructsThms2 StructsThms3 StructsThms4 StructsThms5 StructsThms6 StructsThms7.
Open Scope nat_scope.

Section P.
Context {T : Type} (zero : T).
Notation rval := (rval T).
Notation pel := (pel T).
Notation pay := (pay T).
Notation env := (env T).
Notation pstate := (pstate T).
Notation sobj := (sobj T).
Notation view := (view T).
Notation clos := (@clos T).

(** ** Windows of a vector *)
Lemma set_nth_window {A} k (a : A) x w y : k < length w -> set_nth (length x + k) a (x ++ w ++ y) = x ++ set_nth k a w ++ y.
Proof.
  intros Hk. induction x as [|b x IH]; simpl; [|now rewrite IH]. revert k Hk. induction w as [|c w IHw]; intros [|k] Hk; simpl in *; try lia; [reflexivity|].
  rewrite IHw by lia. reflexivity.
Qed.
Lemma set_list_window {A} (x y : list A) : forall ks w xs, Forall (fun k => k < length w) ks ->
  vec_set_list (x ++ w ++ y) (map (Nat.add (length x)) ks) xs = x ++ vec_set_list w ks xs ++ y.
Proof.
  induction ks as [|k ks IH]; intros w xs H; [reflexivity|]. destruct xs as [|a xs]; [reflexivity|]. inversion H as [|? ? Hk Hks]; subst. simpl.
  rewrite set_nth_window by exact Hk. apply IH. now rewrite set_nth_length.
Qed.
Lemma shift_map k (i : dm nat) : dm_shift k i = dm_map (Nat.add k) i.
Proof. reflexivity. Qed.

Lemma assign_window sk (x w y : list T) i m : inb w i ->
  vec_assign sk zero (x ++ w ++ y) (dm_shift (length x) i) m = rmap (fun w' => x ++ w' ++ y) (vec_assign sk zero w i m).
Proof.
  intros Hi. unfold vec_assign. cbn [dm_shift dm_sp dm_nz]. unfold dm_nr, dm_nc. cbn [dm_shift dm_sp].
  assert (E1 : forallb (fun k => k <? length w) (dm_nz i) = true) by (now apply forallb_inb).
  assert (E2 : forallb (fun k => k <? length (x ++ w ++ y)) (map (Nat.add (length x)) (dm_nz i)) = true).
  { apply forallb_forall. intros k Hk. apply in_map_iff in Hk as (j & <- & Hj). unfold inb in Hi. rewrite Forall_forall in Hi. specialize (Hi j Hj).
    apply Nat.ltb_lt. rewrite !app_length. lia. }
  rewrite E1, E2. repeat rewrite (set_list_window x y) by exact Hi.
  assert (Em : forall a : T, map (fun _ => a) (map (Nat.add (length x)) (dm_nz i)) = map (fun _ => a) (dm_nz i)) by (intros; now rewrite map_map).
  rewrite Em. destruct (dm_nz m) as [|a l] eqn:En.
  - repeat rewrite (set_list_window x y) by exact Hi.
    destruct (spy_eqb _ _); [reflexivity|]. destruct (dm_is_scalar m); [destruct sk; reflexivity|]. destruct (_ && _); [reflexivity|]. destruct (_ && _); reflexivity.
  - rewrite Em. repeat rewrite (set_list_window x y) by exact Hi.
    destruct (spy_eqb _ _); [reflexivity|]. destruct (dm_is_scalar m); [reflexivity|]. destruct (_ && _); [reflexivity|]. destruct (_ && _); reflexivity.
Qed.
Lemma get_window (x w y : list T) i : inb w i -> vec_get (x ++ w ++ y) (dm_shift (length x) i) = vec_get w i.
Proof.
  intros Hi. unfold vec_get. cbn [dm_shift dm_sp dm_nz].
  assert (E : rmapM (fun k => match nth_error (x ++ w ++ y) k with Some a => Ok a | None => Err EException end) (map (Nat.add (length x)) (dm_nz i)) =
              rmapM (fun k => match nth_error w k with Some a => Ok a | None => Err EException end) (dm_nz i)).
  { unfold inb in Hi. induction Hi as [|k l Hk _ IH]; [reflexivity|]. simpl. rewrite IH. rewrite nth_error_app2 by lia.
    replace (length x + k - length x) with k by lia. rewrite nth_error_app1 by exact Hk. reflexivity. }
  now rewrite E.
Qed.
Lemma mirror_copy (v mir : list T) : length mir = length v -> vec_set_list mir (seq 0 (length mir)) v = v.
Proof.
  intros H. apply nth_error_ext. intros i. destruct (Nat.ltb_spec i (length v)) as [Hi|Hi].
  - apply nth_error_nth' with (d := zero) in Hi as Hv. rewrite Hv.
    apply (vec_set_list_at (seq 0 (length mir)) mir v i i (nth i v zero)).
    + apply seq_NoDup.
    + apply Forall_forall. intros k Hk. apply in_seq in Hk. lia.
    + rewrite (nth_error_nth' _ 0) by (rewrite seq_length; lia). rewrite seq_nth by lia. reflexivity.
    + exact Hv.
  - rewrite (proj2 (nth_error_None v i)) by exact Hi. apply nth_error_None. rewrite vec_set_list_length. lia.
Qed.

(** ** Payloads without structurally empty scalars *)
Fixpoint PayFull (p : pay) : Prop :=
  match p with
  | PayMat m => dm_is_scalar m = true -> dm_nz m <> []
  | PayList l => (fix go (l : list pay) : Prop := match l with [] => True | x :: l' => PayFull x /\ go l' end) l
  | PayDict l => (fix go (l : list (string * pay)) : Prop := match l with [] => True | x :: l' => PayFull (snd x) /\ go l' end) l
  | PayRep q => PayFull q
  | _ => True
  end.
Lemma PayFull_list l : PayFull (PayList l) <-> forall q, In q l -> PayFull q.
Proof. simpl. induction l as [|x l IH]; [simpl; tauto|]. rewrite IH. split; [intros [A B] q [<-|H]; auto|intros H; split; [apply H; now left|intros q Hq; apply H; now right]]. Qed.
Lemma PayFull_dict l : PayFull (PayDict l) <-> forall q, In q l -> PayFull (snd q).
Proof. simpl. induction l as [|x l IH]; [simpl; tauto|]. rewrite IH. split; [intros [A B] q [<-|H]; auto|intros H; split; [apply H; now left|intros q Hq; apply H; now right]]. Qed.
Lemma unpack_full p k p' : PayFull p -> payloadUnpack p k = Ok p' -> PayFull p'.
Proof.
  intros Hp H. unfold payloadUnpack in H. destruct k as [n|i]; [discriminate|]. destruct p as [|x|m|l|l|q]; try (injection H as <-; exact Hp).
  destruct (_ <=? _)%Z; [discriminate|]. rewrite PayFull_list in Hp. apply Hp. unfold py_nth in H.
  destruct (_ && _)%bool; [|discriminate]. destruct (nth_error l _) eqn:E; [|discriminate]. injection H as <-. eapply nth_error_In; eauto.
Qed.
Lemma mtype_full p M : PayFull p -> to_mtype p = Ok M -> dm_is_scalar M = true -> dm_nz M <> [].
Proof.
  intros Hp. destruct p as [|x|m|l|l|q]; simpl; try discriminate.
  - intros [= <-] _ E. discriminate E.
  - intros [= <-]. exact Hp.
  - destruct (pay_nums l) as [xs|].
    + intros [= <-] Hs E. cbn [dm_col dm_nz] in E. subst xs. discriminate.
    + destruct (pay_rows l) as [rows|]; [|discriminate]. unfold dm_of_rows. destruct (forallb _ rows) eqn:Ef; [|discriminate]. intros [= <-].
      unfold dm_is_scalar, dm_nr, dm_nc, dm_build. cbn [dm_sp sp_nr sp_nc]. intros Hs. apply andb_true_iff in Hs as [H1 H2]. apply Nat.eqb_eq in H1, H2.
      destruct rows as [|r [|]]; try discriminate. destruct r as [|a [|]]; try discriminate. 
Qed.

(** ** The two stores of a kind agree on full values *)
Lemma assign_sk (v : list T) i m : spy_eqb (dm_sp i) (dm_sp m) = true \/ (dm_is_scalar m = true -> dm_nz m <> []) ->
  vec_assign true zero v i m = vec_assign false zero v i m.
Proof.
  intros H. unfold vec_assign. destruct (spy_eqb _ _); [reflexivity|]. destruct H as [H|H]; [discriminate|].
  destruct (dm_is_scalar m); [|reflexivity]. destruct (dm_nz m); [now destruct H|reflexivity].
Qed.
Lemma assign_length sk (v v' : list T) i m : vec_assign sk zero v i m = Ok v' -> length v' = length v.
Proof.
  unfold vec_assign. intros H.
  repeat match type of H with
  | (if ?b then _ else _) = _ => destruct b
  | match ?b with [] => _ | _ :: _ => _ end = _ => destruct b
  end; try discriminate; injection H as <-; rewrite ?vec_set_list_length; reflexivity.
Qed.

(** ** Extra indices under a shift *)
Definition shift_r (k : nat) (r : rval) : rval := match r with RIdx m => RIdx (dm_shift k m) | _ => r end.
Lemma getitem1_shift k m a : getitem1 (RIdx (dm_shift k m)) a = rmap (shift_r k) (@getitem1 T (RIdx m) a).
Proof.
  destruct a as [a|l|]; [| |reflexivity]; cbn [getitem1]; rewrite shift_map.
  - rewrite dm_get1_map. destruct (dm_get1 m a); reflexivity.
  - rewrite dm_get1r_map. destruct (dm_get1r m l); reflexivity.
Qed.
Lemma getitem2_shift k m a b : getitem2 (RIdx (dm_shift k m)) a b = rmap (shift_r k) (@getitem2 T (RIdx m) a b).
Proof. unfold getitem2. destruct (dsel_sel a) as [s|], (dsel_sel b) as [t|]; try reflexivity. rewrite shift_map, dm_get2_map. destruct (dm_get2 m s t); reflexivity. Qed.
Lemma pei_shift ei flip k m ex : no_fun ex ->
  performExtraIndex ei flip (RIdx (dm_shift k m)) ex = rmap (shift_r k) (@performExtraIndex T ei flip (RIdx m) ex).
Proof.
  intros Hf. destruct ex as [|a ex]; [reflexivity|]. apply Forall_cons_iff in Hf as [Ha Hf].
  assert (K : forall m x, performExtraIndex ei flip (RIdx m) (x :: ex) = 
    match x with PFun f => let* r := performExtraIndex ei flip (RIdx m) ex in f r | PNest => Ok (RIdx m)
    | _ => match ex with
           | [] => let* a' := delegation ei 0 x in getitem1 (RIdx m) a'
           | [b] => let* a' := delegation ei 0 x in let* b' := delegation ei 1 b in
                    if flip then getitem2 (RIdx m) b' a' else getitem2 (RIdx m) a' b'
           | _ => Err EException end end).
  { intros m0 x. destruct x; try reflexivity; destruct ex as [|b [|]]; reflexivity. }
  rewrite !K.
  assert (G : match ex with
           | [] => let* a' := delegation ei 0 a in getitem1 (RIdx (dm_shift k m)) a'
           | [b] => let* a' := delegation ei 0 a in let* b' := delegation ei 1 b in
                    if flip then getitem2 (RIdx (dm_shift k m)) b' a' else getitem2 (RIdx (dm_shift k m)) a' b'
           | _ => Err EException end = rmap (shift_r k) (match ex with
           | [] => let* a' := delegation ei 0 a in @getitem1 T (RIdx m) a'
           | [b] => let* a' := delegation ei 0 a in let* b' := delegation ei 1 b in
                    if flip then getitem2 (RIdx m) b' a' else getitem2 (RIdx m) a' b'
           | _ => Err EException end)).
  { destruct ex as [|b [|]]; [| |reflexivity].
    - destruct (delegation ei 0 a); [|reflexivity]. simpl rbind. apply getitem1_shift.
    - destruct (delegation ei 0 a); [|reflexivity]. simpl rbind. destruct (delegation ei 1 b); [|reflexivity]. simpl rbind.
      destruct flip; apply getitem2_shift. }
  destruct a; try exact G; [reflexivity|destruct Ha].
Qed.

(** ** Nothing but a name follows the index of a sub-structure *)
Definition Pos (s : structure) (ci : cidx) : Prop := (exists e, Leaf s ci e) \/ (exists s', Block s ci s').
Lemma Pos_inv s ci : Pos s ci -> exists e idx r, In e (s_entries s) /\ InDims idx (e_dims e) /\ ci = KS (e_name e) :: map KI idx ++ r /\
  (r = [] \/ exists s', e_struct e = Some s' /\ Pos s' r).
Proof.
  intros [(e & H)|(s' & H)]; inversion H; subst.
  - exists e, idx, []. rewrite app_nil_r. auto.
  - exists e0, idx, ci0. do 3 (split; [assumption || reflexivity|]). right. exists s'. split; [assumption|]. left; eauto.
  - exists e, idx, []. rewrite app_nil_r. auto.
  - exists e, idx, p. do 3 (split; [assumption || reflexivity|]). right. exists s'0. split; [assumption|]. right; eauto.
Qed.
Lemma Pos_starts s ci : Pos s ci -> starts_name ci.
Proof. intros H. destruct (Pos_inv s ci H) as (e & idx & r & _ & _ & -> & _). eexists. eexists. reflexivity. Qed.
Lemma block_next s p s' : Wf s -> Block s p s' -> forall r, r <> [] -> Pos s (p ++ r) -> starts_name r.
Proof.
  intros Hw Hb. revert Hw. induction Hb as [s e idx s' He Es Hd|s e idx s' p s'' He Es Hd Hb IH]; intros Hw r Hr H.
  - destruct (Pos_inv _ _ H) as (e' & idx' & r' & He' & Hd' & E & Hr'). injection E as En E.
    pose proof (name_inj _ _ _ (Wf_NoDup _ Hw) He He' En) as <-. apply map_KI_app_inv in E as [_ <-]; [|apply Forall2_len in Hd, Hd'; congruence].
    destruct Hr' as [->|(s2 & _ & Hp)]; [congruence|]. eapply Pos_starts; eauto.
  - destruct (Pos_inv _ _ H) as (e' & idx' & r' & He' & Hd' & E & Hr'). simpl in E. injection E as En E.
    pose proof (name_inj _ _ _ (Wf_NoDup _ Hw) He He' En) as <-. rewrite <- app_assoc in E.
    apply map_KI_app_inv in E as [_ E]; [|apply Forall2_len in Hd, Hd'; congruence].
    destruct Hr' as [->|(s2 & Es2 & Hp)].
    + apply app_eq_nil in E as [_ ->]. congruence.
    + rewrite Es in Es2. injection Es2 as <-. subst r'. apply IH; auto. eapply Wf_sub; eauto.
Qed.
Lemma map_Pos s c ci m : Wf s -> casadi_structure s = Ok c -> cmap_get ci (cs_map c) = Some m -> Pos s ci.
Proof. intros Hw Hc Hm. destruct (map_keys s c ci m Hw Hc Hm) as [H|(s' & H & _)]; [left; exact H|right; eauto]. Qed.

(** ** A structure inside a larger one *)
Section Reloc.
Variables (s : structure) (c : cstruct) (P : cidx) (s' : structure) (c' : cstruct) (l1 l2 : list cidx).
Hypothesis Hw : Wf s.
Hypothesis Hc : casadi_structure s = Ok c.
Hypothesis Hb : Block s P s'.
Hypothesis Hc' : casadi_structure s' = Ok c'.
Hypothesis Hs : leaves s = l1 ++ map (app P) (leaves s') ++ l2.
Variables (x y : list T) (mir0 : list T) (sto : list (option (dm T))) (kd : mkind) (mp : list (cidx * nat)).
Hypothesis Hx : length x = tot s l1.
Notation n := (cs_size c').
Notation en := (Env (cs_map c) [] kd mp).
Notation en' := (Env (cs_map c') [] KPlain []).

Lemma look_map ci : ci <> [] ->
  cmap_get (P ++ ci) (cs_map c) = match cmap_get ci (cs_map c') with Some m => Some (dm_shift (length x) m) | None => None end.
Proof.
  intros Hne. destruct ci as [|k ci]; [congruence|]. rewrite Hx. destruct k as [a|i].
  - apply (block_map s c P s' c' l1 l2 (KS a :: ci)); auto. eexists. eexists. reflexivity.
  - pose proof (Block_Wf s P s' Hw Hb) as Hw'.
    destruct (cmap_get (KI i :: ci) (cs_map c')) as [m|] eqn:E.
    + destruct (Pos_starts _ _ (map_Pos _ _ _ _ Hw' Hc' E)) as (a & r & Er). discriminate.
    + destruct (cmap_get (P ++ KI i :: ci) (cs_map c)) as [m|] eqn:E2; [|reflexivity].
      destruct (block_next s P s' Hw Hb (KI i :: ci)) as (a & r & Er); [discriminate|eapply map_Pos; eauto|discriminate].
Qed.

Definition mirf (v : list T) : list T := match kd with KRep => v | _ => mir0 end.
Definition big (w : list T) : pstate := PState (x ++ w ++ y) (mirf (x ++ w ++ y)) sto.
Definition small (w : list T) : pstate := PState w [] [].
Definition rel {A} (m m' : @M T A) : Prop := forall w, length w = n -> exists w', length w' = n /\ fst (m' (small w)) = small w' /\ m (big w) = (big w', snd (m' (small w))).

Lemma rel_ret {A} (a : A) : rel (mret a) (mret a).
Proof. intros w Hl. exists w. auto. Qed.
Lemma rel_err {A} e : rel (@merr T A e) (merr e).
Proof. intros w Hl. exists w. auto. Qed.
Lemma rel_lift {A} (r : res A) : rel (mlift r) (mlift r).
Proof. intros w Hl. exists w. auto. Qed.
Lemma rel_bind {A B} (m m' : @M T A) (k k' : A -> @M T B) : rel m m' -> (forall a, rel (k a) (k' a)) -> rel (mbind m k) (mbind m' k').
Proof.
  intros Hm Hk w Hl. destruct (Hm w Hl) as (w1 & Hl1 & E1 & E2). unfold mbind. rewrite E2. destruct (m' (small w)) as [st [a|e]]; simpl in *; subst st.
  - apply (Hk a w1 Hl1).
  - exists w1. auto.
Qed.
Lemma rel_bind_lift {A B} (r : res A) (k k' : A -> @M T B) : (forall a, r = Ok a -> rel (k a) (k' a)) -> rel (mbind (mlift r) k) (mbind (mlift r) k').
Proof. intros H. destruct r as [a|e]; [exact (H a eq_refl)|apply rel_err]. Qed.
Lemma rel_wrap {A} (m m' : @M T A) : rel m m' -> rel (mwrap m) (mwrap m').
Proof.
  intros Hm w Hl. destruct (Hm w Hl) as (w1 & Hl1 & E1 & E2). exists w1. split; [exact Hl1|]. unfold mwrap. rewrite E2.
  destruct (m' (small w)) as [st [a|e]]; simpl in *; auto.
Qed.
Lemma rel_mmapM {A B} (f f' : A -> @M T B) l : (forall a, In a l -> rel (f a) (f' a)) -> rel (mmapM f l) (mmapM f' l).
Proof.
  induction l as [|a l IH]; intros H; [apply rel_ret|]. simpl. apply rel_bind; [apply H; now left|].
  intros b. apply rel_bind; [apply IH; intros; apply H; now right|]. intros bs. apply rel_ret.
Qed.
Lemma rel_look_bind {B} (d : list (string * clos)) k (g g' : clos -> @M T B) :
  (forall f, In (k, f) d -> rel (g f) (g' f)) -> rel (mbind (look d k) g) (mbind (look d k) g').
Proof.
  intros H. unfold look. destruct (dict_get k d) as [f|] eqn:E; [|apply rel_err]. exact (H f (dict_get_In _ _ _ E)).
Qed.
Lemma rel_mdict (m m' : @M T (list (string * rval))) : rel m m' -> rel (mdict m) (mdict m').
Proof. intros H. apply rel_bind; [exact H|]. intros; apply rel_ret. Qed.

Lemma rel_set i m : Forall (fun k => k < n) (dm_nz i) -> (kd <> KPlain -> spy_eqb (dm_sp i) (dm_sp m) = true \/ (dm_is_scalar m = true -> dm_nz m <> [])) ->
  rel (master_set zero kd (dm_shift (length x) i) m) (master_set zero KPlain i m).
Proof.
  intros Hi Hk w Hl. rewrite <- Hl in Hi.
  assert (E : forall sk, (sk = true -> kd <> KPlain) -> vec_assign sk zero (x ++ w ++ y) (dm_shift (length x) i) m = rmap (fun w' => x ++ w' ++ y) (vec_set zero w i m)).
  { intros [|] Hsk; rewrite assign_window by exact Hi; [rewrite assign_sk by auto|]; reflexivity. }
  assert (Es : master_set zero KPlain i m (small w) = match vec_set zero w i m with Ok v => (small v, Ok tt) | Err e => (small w, Err e) end) by reflexivity.
  destruct (vec_set zero w i m) as [w'|e] eqn:Ew.
  - exists w'. rewrite Es. split; [rewrite <- Hl; eapply (assign_length false); exact Ew|]. split; [reflexivity|]. cbn [snd].
    unfold master_set, big, mirf. destruct kd eqn:Ek; unfold vec_set, vec_set_nz; cbn [ps_master]; rewrite E by discriminate; cbn [rmap ps_mirror ps_storage]; [reflexivity..|].
    rewrite mirror_copy; [reflexivity|]. rewrite !app_length. rewrite (assign_length false _ _ _ _ Ew). reflexivity.
  - exists w. rewrite Es. split; [exact Hl|]. split; [reflexivity|].
    unfold master_set, big, mirf. destruct kd eqn:Ek; unfold vec_set, vec_set_nz; cbn [ps_master]; rewrite E by discriminate; reflexivity.
Qed.

(** ** The dispatchers *)
Lemma pei_mid ei flip m ex i : DmOk m -> Forall (fun k => k < n) (dm_nz m) -> no_fun ex -> @performExtraIndex T ei flip (RIdx m) ex = Ok i ->
  exists m', i = RIdx m' /\ Forall (fun k => k < n) (dm_nz m').
Proof.
  intros Hm Hn Hf H. apply pei_ok in H as (m' & -> & _ & Hi); [|exact Hm|].
  - exists m'. split; [reflexivity|]. rewrite Forall_forall in *. auto.
  - eapply Forall_impl; [|exact Hf]. intros a. destruct a; auto.
Qed.
Lemma rel_getter ci ex ei : ci <> [] -> no_fun (extra ex) -> rel (getter en (P ++ ci) ex ei) (getter en' ci ex ei).
Proof.
  intros Hne Hf. unfold getter. cbn [en_map en_pmap]. rewrite (look_map ci Hne).
  destruct (cmap_get ci (cs_map c')) as [m|] eqn:Em; [|apply rel_err].
  destruct (map_ok s' c' ci m (Block_Wf s P s' Hw Hb) Hc' Em) as (_ & Hm & _ & Hn & _).
  assert (G : rel (i <- mlift (performExtraIndex ei false (RIdx (dm_shift (length x) m)) (extra ex)) ;;
          match i with
          | RIdx i => v <- get_master ;;
              if is_symm ei then mlift (let* r := vec_get v i in rmap RMat (dm_triu2symm r)) else mlift (rmap RMat (correct_vector_indexing v i))
          | _ => merr EException end)
        (i <- mlift (performExtraIndex ei false (RIdx m) (extra ex)) ;;
          match i with
          | RIdx i => v <- get_master ;;
              if is_symm ei then mlift (let* r := vec_get v i in rmap RMat (dm_triu2symm r)) else mlift (rmap RMat (correct_vector_indexing v i))
          | _ => merr EException end)).
  { rewrite pei_shift by exact Hf. destruct (performExtraIndex ei false (RIdx m) (extra ex)) as [i|e] eqn:Ei; [|apply rel_err].
    destruct (pei_mid _ _ _ _ _ Hm Hn Hf Ei) as (m' & -> & Hn'). cbn [rmap shift_r].
    intros w Hl. exists w. split; [exact Hl|]. rewrite <- Hl in Hn'. unfold mbind, mlift, get_master. cbn [big small ps_master]. 
    unfold correct_vector_indexing. rewrite get_window by exact Hn'. destruct (is_symm ei); auto. }
  destruct (extra ex); exact G.
Qed.
Definition okp (v : pay) : Prop := kd <> KPlain -> PayFull v.
Lemma rel_setter v ci ex ei : ci <> [] -> no_fun (extra ex) -> okp v -> rel (setter zero en v (P ++ ci) ex ei) (setter zero en' v ci ex ei).
Proof.
  intros Hne Hf Hv. unfold setter. apply rel_bind_lift. intros Mv HM. cbn [en_map en_kind]. rewrite (look_map ci Hne).
  destruct (cmap_get ci (cs_map c')) as [m|] eqn:Em; [|apply rel_err].
  destruct (map_ok s' c' ci m (Block_Wf s P s' Hw Hb) Hc' Em) as (_ & Hm & _ & Hn & _).
  assert (HMf : forall i : dm nat, kd <> KPlain -> spy_eqb (dm_sp i) (dm_sp Mv) = true \/ (dm_is_scalar Mv = true -> dm_nz Mv <> [])).
  { intros i Hk. right. apply (mtype_full v); auto. }
  assert (Hset : forall i : dm nat, Forall (fun k => k < n) (dm_nz i) -> rel (master_set zero kd (dm_shift (length x) i) Mv) (master_set zero KPlain i Mv)) by (intros i Hi; apply rel_set; auto).
  rewrite !pei_shift by exact Hf.
  destruct (performExtraIndex ei false (RIdx m) (extra ex)) as [i|e] eqn:Ei; [|apply rel_err].
  destruct (pei_mid _ _ _ _ _ Hm Hn Hf Ei) as (mi & -> & Hni). 
  cbn [rmap shift_r].
  assert (Hnil : forall {A B} (a : A) (k : A -> @M T B), mbind (mlift (Ok a)) k = k a) by reflexivity.
  rewrite !Hnil.
  assert (Hpl : rel (_ <- master_set zero kd (dm_shift (length x) mi) Mv ;; mret (@RNone T)) (_ <- master_set zero KPlain mi Mv ;; mret RNone)).
  { apply rel_bind; [|intros; apply rel_ret]. apply rel_set; auto. }
  destruct (is_symm ei); [|exact Hpl].
  destruct (performExtraIndex ei true (RIdx m) (extra ex)) as [f|e] eqn:Ef; [|apply rel_err].
  destruct (pei_mid _ _ _ _ _ Hm Hn Hf Ef) as (mf & -> & Hnf). cbn [rmap shift_r]. rewrite !Hnil.
  destruct (dm_is_scalar Mv).
  - apply rel_bind; [auto|]. intros _. apply rel_bind; [auto|]. intros; apply rel_ret.
  - destruct (match ei with Some e => ei_orig e | None => None end) as [orig|]; [|apply rel_err].
    apply rel_bind_lift. intros oi _. destruct oi; try apply rel_err. destruct (spy_eqb _ _); [|apply rel_err].
    assert (Hsp : forall (d : dm T) (j : dm nat) q, dm_get_sp zero d (dm_sp j) = Ok q -> spy_eqb (dm_sp j) (dm_sp q) = true).
    { intros d j q. unfold dm_get_sp. destruct (_ && _); [|discriminate]. intros [= <-]. apply spy_eqb_eq. reflexivity. }
    apply rel_bind_lift. intros pt Hpt. apply rel_bind; [apply rel_set; [assumption|]; intros _; left; eapply Hsp; exact Hpt|]. intros _.
    apply rel_bind_lift. intros pu Hpu. apply rel_bind; [apply rel_set; [assumption|]; intros _; left; eapply Hsp; exact Hpu|]. intros _. apply rel_ret.
Qed.

(** ** The traversals *)
Definition gs (md : mode) : Prop := md = MGet \/ md = MSet.
Definition okm (md : mode) (v : pay) : Prop := gs md /\ (md = MSet -> okp v).
Lemma rel_dispatch md v ci ex ei : okm md v -> ci <> [] -> no_fun (extra ex) -> rel (dispatch zero en md v (P ++ ci) ex ei) (dispatch zero en' md v ci ex ei).
Proof. intros [[->| ->] Hv] Hne Hf; [now apply rel_getter|apply rel_setter; auto]. Qed.
Lemma okm_unpack md v k v' : okm md v -> payloadUnpack v k = Ok v' -> okm md v'.
Proof. intros [Hm Hv] E. split; [exact Hm|]. intros Hset Hk. eapply unpack_full; [apply Hv; auto|exact E]. Qed.
Lemma okm_dict md l kv : okm md (PayDict l) -> In kv l -> okm md (snd kv).
Proof. intros [Hm Hv] Hin. split; [exact Hm|]. intros Hset Hk. specialize (Hv Hset Hk). rewrite PayFull_dict in Hv. auto. Qed.

Definition rclos (f : clos) : Prop := forall md pi ci v, okm md v -> no_fun pi -> (pi <> [] \/ ci <> []) -> rel (f en md pi (P ++ ci) v) (f en' md pi ci v).

Lemma rel_travD ei sub : (forall f, sub = Some f -> rclos f) -> forall dims md pi ci v, okm md v -> no_fun pi -> ci <> [] ->
  rel (travD zero en ei sub dims md pi (P ++ ci) v) (travD zero en' ei sub dims md pi ci v).
Proof.
  intros Hsub. induction dims as [|d ds IH]; intros md pi ci v Hv Hf Hne.
  - simpl. apply rel_wrap. destruct pi; [now apply rel_dispatch|]. destruct sub as [f|]; [apply Hsub; auto|now apply rel_dispatch].
  - cbn [travD].
    assert (Hmany : forall l rest, no_fun rest -> rel (rs <- mmapM (fun k => match k with
                     | KS _ => merr EType
                     | KI i => p' <- mlift (payloadUnpack v k) ;;
                               travD zero en ei sub ds md rest ((P ++ ci) ++ [KI (canonical i d)]) p'
                     end) l ;; mret (RList rs)) (rs <- mmapM (fun k => match k with
                     | KS _ => merr EType
                     | KI i => p' <- mlift (payloadUnpack v k) ;;
                               travD zero en' ei sub ds md rest (ci ++ [KI (canonical i d)]) p'
                     end) l ;; mret (RList rs))).
    { intros l rest Hr. apply rel_bind; [|intros; apply rel_ret]. apply rel_mmapM. intros [|] _; [apply rel_err|].
      apply rel_bind_lift. intros v' Hv'. rewrite <- app_assoc. apply IH; auto; [eapply okm_unpack; eauto|]. destruct ci; discriminate. }
    destruct pi as [|a rest]; apply rel_wrap.
    + apply rel_bind_lift. intros. now apply Hmany.
    + apply Forall_cons_iff in Hf as [Ha Hf]. destruct a; try apply rel_err; try (now apply Hmany).
      * rewrite <- app_assoc. apply IH; auto. destruct ci; discriminate.
      * apply rel_bind_lift. intros. now apply Hmany.
      * apply Hmany. repeat constructor.
      * destruct Ha.
Qed.

Lemma rel_travS_body d keys : (forall k f, In (k, f) d -> forall md pi ci v, okm md v -> no_fun pi -> ci <> [] -> rel (f en md pi (P ++ ci) v) (f en' md pi ci v)) ->
  rclos (travS_body zero d keys).
Proof.
  intros Hd md pi.
  assert (Hcons : forall (ci : cidx) k, ci ++ [k] <> []) by (intros [|]; discriminate).
  assert (Hdict : forall ci v rest, okm md v -> no_fun rest -> 
     rel (match v with
    | PayDict kv =>
        mdict (mmapM (fun x => f <- look d (fst x) ;;
                               r <- f en md rest ((P ++ ci) ++ [KS (fst x)]) (snd x) ;; mret (fst x, r)) kv)
    | _ =>
        mdict (mmapM (fun x => r <- snd x en md rest ((P ++ ci) ++ [KS (fst x)]) v ;; mret (fst x, r)) d)
    end) (match v with
    | PayDict kv =>
        mdict (mmapM (fun x => f <- look d (fst x) ;;
                               r <- f en' md rest (ci ++ [KS (fst x)]) (snd x) ;; mret (fst x, r)) kv)
    | _ =>
        mdict (mmapM (fun x => r <- snd x en' md rest (ci ++ [KS (fst x)]) v ;; mret (fst x, r)) d)
    end)).
  { intros ci v rest Hv Hr. destruct v; apply rel_mdict, rel_mmapM; intros [k f] Hin; cbn [fst snd]; rewrite <- ?app_assoc;
      try (apply rel_bind; [now apply (Hd k f)|]; intros; apply rel_ret).
    apply rel_look_bind. intros f' Hf'. apply rel_bind; [apply (Hd _ _ Hf'); auto; exact (okm_dict _ _ _ Hv Hin)|]. intros; apply rel_ret. }
  induction pi as [|a rest IH]; intros ci v Hv Hf Hne; cbn [travS_body]; apply rel_wrap.
  - apply rel_dispatch; [exact Hv| |constructor]. destruct Hne; auto.
  - apply Forall_cons_iff in Hf as [Ha Hf]. destruct a; try apply rel_err; try (apply Hdict; auto; now repeat constructor).
    + rewrite <- app_assoc. apply rel_look_bind. intros f Hf'. now apply (Hd _ _ Hf').
    + apply rel_bind; [|intros; apply rel_ret]. apply rel_mmapM. intros [i k] _. cbn [fst snd].
      apply rel_bind_lift. intros v' Hv'. rewrite <- app_assoc. apply IH; auto. eapply okm_unpack; eauto.
    + apply rel_bind; [|intros; apply rel_ret]. apply rel_mmapM. intros [i k] _. cbn [fst snd].
      apply rel_look_bind. intros f Hf'. apply rel_bind_lift. intros v' Hv'. rewrite <- app_assoc. apply (Hd _ _ Hf'); auto. eapply okm_unpack; eauto.
    + destruct v; apply rel_mdict, rel_mmapM; intros z Hin; rewrite <- ?app_assoc; apply rel_look_bind; intros f Hf';
        (apply rel_bind; [apply (Hd _ _ Hf'); auto|intros; apply rel_ret]).
      apply filter_In in Hin as [Hin _]. exact (okm_dict _ _ _ Hv Hin).
    + destruct Ha.
Qed.

Theorem rel_travS s0 : rclos (travS zero s0).
Proof.
  induction s0 as [es order IH] using structure_ind2. intros md pi ci v Hv Hf Hne. rewrite !travS_eq.
  apply rel_travS_body; auto. intros k f Hin. unfold sdictT in Hin. apply in_pydict in Hin. simpl in Hin.
  apply in_map_iff in Hin as (e & [= <- <-] & He). intros md' pi' ci' v' Hv' Hf' Hne'. rewrite !travE_eq. apply rel_travD; auto.
  unfold subT. intros f. destruct (e_struct e) as [s1|] eqn:Es; [|discriminate]. intros [= <-]. eapply IH; eauto.
Qed.
End Reloc.
End P.
