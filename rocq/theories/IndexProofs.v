From Coq Require Import Permutation.
From Verif Require Import PyBase IndexModel DMModel StructModel StructSpec.

(** ** Small list facts *)

Lemma Forall2_len {A B} (R : A -> B -> Prop) l l' : Forall2 R l l' -> length l = length l'.
Proof. induction 1; simpl; auto. Qed.

Lemma set_nth_length {A} n (v : A) l : length (set_nth n v l) = length l.
Proof. revert n; induction l as [|x l IH]; intros [|n]; simpl; auto. Qed.

Lemma set_nth_app {A} (pre : list A) x v post :
  set_nth (length pre) v (pre ++ x :: post) = pre ++ v :: post.
Proof. induction pre as [|y pre IH]; simpl; [reflexivity|now rewrite IH]. Qed.

Lemma nth_error_set_nth_same {A} n (v : A) l : n < length l -> nth_error (set_nth n v l) n = Some v.
Proof. revert n; induction l as [|x l IH]; intros [|n] H; simpl in *; try lia; auto. apply IH; lia. Qed.

Lemma nth_error_set_nth_other {A} n m (v : A) l : n <> m -> nth_error (set_nth n v l) m = nth_error l m.
Proof.
  revert n m; induction l as [|x l IH]; intros [|n] [|m] H; simpl; auto; try lia.
Qed.

(** ** ck / cidx equality *)

Lemma ck_eqb_eq a b : ck_eqb a b = true <-> a = b.
Proof.
  destruct a as [s|i], b as [t|j]; simpl.
  - rewrite String.eqb_eq. split; [now intros ->|now intros [= ->]].
  - split; discriminate.
  - split; discriminate.
  - rewrite Z.eqb_eq. split; [now intros ->|now intros [= ->]].
Qed.

Lemma cidx_eqb_eq a b : cidx_eqb a b = true <-> a = b.
Proof.
  revert b; induction a as [|x a IH]; intros [|y b]; simpl; try (split; discriminate); try (split; auto).
  - rewrite andb_true_iff, ck_eqb_eq, IH. intros [-> ->]. reflexivity.
  - intros [= -> ->]. rewrite andb_true_iff, ck_eqb_eq, IH. auto.
Qed.

Lemma cidx_eqb_refl a : cidx_eqb a a = true.
Proof. now apply cidx_eqb_eq. Qed.

Lemma cidx_eqb_neq a b : a <> b -> cidx_eqb a b = false.
Proof. intros H. destruct (cidx_eqb a b) eqn:E; auto. apply cidx_eqb_eq in E. contradiction. Qed.

Lemma ck_eq_dec (a b : ck) : {a = b} + {a <> b}.
Proof. destruct (ck_eqb a b) eqn:E; [left; now apply ck_eqb_eq|right; intros ->]. 
  assert (ck_eqb b b = true) by now apply ck_eqb_eq. congruence. Qed.

Lemma cidx_eq_dec (a b : cidx) : {a = b} + {a <> b}.
Proof. apply list_eq_dec, ck_eq_dec. Qed.

(** ** intersperse *)

Section Intersperse.
Context {A : Type}.
Implicit Types its ls pre post : list (list A).

Definition heads ls : list A := flat_map (fun l => match l with x :: _ => [x] | [] => [] end) ls.
Definition tails ls : list (list A) := map (@tl A) ls.

Definition consistent its (active : list bool) : Prop :=
  Forall2 (fun l (b : bool) => b = false -> l = []) its active.

(** flags after visiting the lists of [post] *)
Definition visit post (act : list bool) : list bool :=
  map (fun lb => match fst lb with [] => false | _ :: _ => snd lb end) (List.combine post act).

Lemma existsb_false_all (act : list bool) :
  existsb (fun b => b) act = false -> Forall (fun b => b = false) act.
Proof.
  induction act as [|b act IH]; simpl; intros H; constructor.
  - destruct b; simpl in H; congruence.
  - apply IH. destruct b; simpl in H; [discriminate|exact H].
Qed.

Lemma consistent_all_false its act :
  consistent its act -> existsb (fun b => b) act = false -> Forall (fun l => l = []) its.
Proof.
  intros Hc Hf. apply existsb_false_all in Hf.
  induction Hc as [|l b its act H Hc IH]; constructor; inversion Hf; subst; auto.
Qed.

Lemma loop_inactive fuel its act i :
  existsb (fun b => b) act = false -> intersperse_loop fuel its act i = Some [].
Proof. intros H. destruct fuel; simpl; now rewrite H. Qed.

Lemma heads_empty ls : Forall (fun l => l = []) ls -> heads ls = [].
Proof. induction 1 as [|l ls H _ IH]; simpl; [reflexivity|]. now rewrite H, IH. Qed.

Lemma visit_inactive post act :
  length post = length act ->
  existsb (fun b => b) act = false -> existsb (fun b => b) (visit post act) = false.
Proof.
  intros Hl H. apply existsb_false_all in H.
  revert act Hl H. induction post as [|l post IH]; intros [|b act] Hl H; simpl in *; try reflexivity; try lia.
  inversion H; subst. unfold visit in *. simpl.
  rewrite IH; auto. destruct l; reflexivity.
Qed.

Lemma existsb_app' (a b : list bool) :
  existsb (fun b => b) (a ++ b) = existsb (fun b => b) a || existsb (fun b => b) b.
Proof. apply existsb_app. Qed.

(** One round, from position [length pre] to the end. *)
Lemma loop_round fuel pre post apre apost :
  length pre = length apre -> length post = length apost -> post <> [] ->
  consistent (pre ++ post) (apre ++ apost) ->
  intersperse_loop (length post + fuel) (pre ++ post) (apre ++ apost) (length pre) =
  match intersperse_loop fuel (pre ++ tails post) (apre ++ visit post apost) 0 with
  | Some ys => Some (heads post ++ ys)
  | None => None
  end.
Proof.
  revert pre apre apost. induction post as [|l post IH]; intros pre apre apost Hp Hq Hne Hc; [congruence|].
  destruct apost as [|b apost]; [discriminate|]. simpl in Hq.
  destruct (existsb (fun b => b) (apre ++ b :: apost)) eqn:Hact.
  2:{ (* all inactive: nothing is output *)
      rewrite loop_inactive by assumption.
      pose proof (consistent_all_false _ _ Hc Hact) as Hall.
      rewrite loop_inactive.
      - rewrite heads_empty; [reflexivity|]. apply Forall_app in Hall. tauto.
      - rewrite existsb_app' in *. apply orb_false_iff in Hact as [H1 H2].
        rewrite H1, orb_false_l. apply visit_inactive; [simpl; lia|exact H2]. }
  cbn [length Nat.add intersperse_loop]. rewrite Hact.
  assert (Hnth : nth (length pre) (pre ++ l :: post) [] = l).
  { rewrite app_nth2 by lia. now rewrite Nat.sub_diag. }
  rewrite Hnth.
  assert (Hi : S (length pre) mod length (pre ++ l :: post) =
               match post with [] => 0 | _ => S (length pre) end).
  { rewrite app_length. simpl. destruct post as [|l' post'].
    - simpl. replace (length pre + 1) with (S (length pre)) by lia. apply Nat.mod_same. lia.
    - simpl. apply Nat.mod_small. lia. }
  rewrite Hi.
  destruct l as [|x l].
  - (* exhausted iterator: flag cleared *)
    rewrite Hp, set_nth_app. rewrite <- Hp.
    destruct post as [|l' post'].
    + destruct apost; [|discriminate]. unfold visit; simpl.
      match goal with |- ?x = _ => destruct x end; reflexivity.
    + specialize (IH (pre ++ [[]]) (apre ++ [false]) apost).
      rewrite app_length in IH. cbn [length Nat.add] in IH. rewrite <- !app_assoc in IH. cbn [app] in IH.
      replace (length pre + 1) with (S (length pre)) in IH by lia.
      cbn [length Nat.add] in *.
      rewrite IH; [reflexivity| | | |]; simpl; try (rewrite app_length; simpl); try lia; try congruence.
      unfold consistent in *. apply Forall2_app_inv_l in Hc as (a1 & a2 & H1 & H2 & Heq).
      assert (a1 = apre) as ->.
      { apply Forall2_len in H1. 
        assert (firstn (length apre) (apre ++ b :: apost) = firstn (length apre) (a1 ++ a2)) as E by now rewrite Heq.
        rewrite firstn_app, Nat.sub_diag, firstn_all, firstn_O, app_nil_r in E.
        rewrite <- Hp, H1 in E. rewrite firstn_app, Nat.sub_diag, firstn_all, firstn_O, app_nil_r in E. now symmetry. }
      apply app_inv_head in Heq. subst a2.
      inversion H2; subst. apply Forall2_app; [assumption|]. constructor; [intros; reflexivity|assumption].
  - (* an element is yielded *)
    rewrite set_nth_app.
    destruct post as [|l' post'].
    + destruct apost; [|discriminate]. unfold visit; simpl. reflexivity.
    + specialize (IH (pre ++ [l]) (apre ++ [b]) apost).
      rewrite app_length in IH. cbn [length Nat.add] in IH. rewrite <- !app_assoc in IH. cbn [app] in IH.
      replace (length pre + 1) with (S (length pre)) in IH by lia.
      cbn [length Nat.add] in *.
      rewrite IH; simpl; try (rewrite app_length; simpl); try lia; try congruence.
      * unfold tails, visit. simpl.
        destruct (intersperse_loop fuel _ _ 0); reflexivity.
      * unfold consistent in *. apply Forall2_app_inv_l in Hc as (a1 & a2 & H1 & H2 & Heq).
        assert (a1 = apre) as ->.
        { apply Forall2_len in H1. 
          assert (firstn (length apre) (apre ++ b :: apost) = firstn (length apre) (a1 ++ a2)) as E by now rewrite Heq.
          rewrite firstn_app, Nat.sub_diag, firstn_all, firstn_O, app_nil_r in E.
          rewrite <- Hp, H1 in E. rewrite firstn_app, Nat.sub_diag, firstn_all, firstn_O, app_nil_r in E. now symmetry. }
        apply app_inv_head in Heq. subst a2.
        inversion H2 as [|? ? ? ? Hb H2']; subst. apply Forall2_app; [assumption|]. constructor; [|assumption].
        intros Hf. specialize (Hb Hf). discriminate.
Qed.

Lemma consistent_visit post act :
  length post = length act -> consistent (tails post) (visit post act) <-> 
  Forall2 (fun l b => match l with [] => True | _ :: l' => b = false -> l' = [] end) post act.
Proof.
  revert act. induction post as [|l post IH]; intros [|b act] H; simpl in *; try lia.
  - split; constructor.
  - unfold consistent, visit in *; simpl. split; inversion 1; subst; constructor; try (apply IH; auto; fail).
    + destruct l; auto.
    + destruct l; auto.
Qed.

Lemma visit_length post act : length post = length act -> length (visit post act) = length act.
Proof. intros H. unfold visit. rewrite map_length, combine_length. lia. Qed.

Lemma consistent_step post act :
  length post = length act -> consistent post act -> consistent (tails post) (visit post act).
Proof.
  intros Hl H. apply consistent_visit; auto.
  clear Hl. induction H as [|l b post act Hlb _ IH]; constructor; auto.
  destruct l; auto. intros Hb. specialize (Hlb Hb). discriminate.
Qed.

Lemma list_max_tails ls : list_max (map (@length A) (tails ls)) = pred (list_max (map (@length A) ls)).
Proof.
  induction ls as [|l ls IH]; [reflexivity|].
  change (Nat.max (length (tl l)) (list_max (map (@length A) (tails ls))) =
          pred (Nat.max (length l) (list_max (map (@length A) ls)))).
  rewrite IH. destruct l; cbn [tl length]; lia.
Qed.

Lemma round_robin_step ls :
  round_robin ls = heads ls ++ round_robin (tails ls).
Proof.
  unfold round_robin. rewrite list_max_tails.
  destruct (list_max (map (@length A) ls)) as [|m] eqn:Hm.
  - simpl. rewrite app_nil_r. symmetry. apply heads_empty.
    apply Forall_forall. intros l Hl. 
    assert (length l <= 0). 
    { pose proof (list_max_le (map (@length A) ls) 0) as [H _]. rewrite Hm in H. specialize (H (le_n 0)).
      rewrite Forall_forall in H. apply H. now apply in_map. }
    destruct l; [reflexivity|simpl in *; lia].
  - simpl pred. cbn [seq flat_map]. f_equal.
    + unfold heads. apply flat_map_ext. intros [|x l]; reflexivity.
    + rewrite <- seq_shift. rewrite flat_map_concat_map, map_map, <- flat_map_concat_map.
      apply flat_map_ext. intros k. unfold tails. rewrite (flat_map_concat_map _ (map _ ls)), map_map, <- flat_map_concat_map.
      apply flat_map_ext. intros [|x l]; simpl; [|reflexivity]. destruct k; reflexivity.
Qed.

Lemma loop_rounds m : forall its act,
  length its = length act -> list_max (map (@length A) its) <= m -> consistent its act ->
  intersperse_loop (length its * S m) its act 0 = Some (round_robin its).
Proof.
  induction m as [|m IH]; intros its act Hl Hm Hc.
  - assert (Hall : Forall (fun l => l = []) its).
    { apply Forall_forall. intros l Hin. apply list_max_le in Hm. rewrite Forall_forall in Hm.
      specialize (Hm (length l) (in_map _ _ _ Hin)). destruct l; [reflexivity|simpl in *; lia]. }
    destruct its as [|l0 its0].
    + destruct act; [|discriminate]. reflexivity.
    + pose proof (loop_round 0 [] (l0 :: its0) [] act eq_refl Hl ltac:(discriminate) Hc) as R.
      cbn [app length] in R. rewrite Nat.mul_1_r. cbn [length]. rewrite Nat.add_0_r in R. rewrite R.
      assert (Hv : existsb (fun b => b) (visit (l0 :: its0) act) = false).
      { clear R Hc Hm. unfold visit. revert act Hl Hall. generalize (l0 :: its0) as ls.
        induction ls as [|l ls IHl]; intros [|b act] Hl Hall; simpl in *; auto; try lia.
        inversion Hall; subst. simpl. apply IHl; auto. }
      rewrite loop_inactive by assumption. rewrite heads_empty by assumption.
      simpl. f_equal. rewrite round_robin_step, heads_empty by assumption.
      symmetry. unfold round_robin. rewrite list_max_tails.
      assert (list_max (map (@length A) (l0 :: its0)) = 0) as -> by lia. reflexivity.
  - destruct its as [|l0 its0].
    { destruct act; [|discriminate]. reflexivity. }
    set (ls := l0 :: its0) in *.
    replace (length ls * S (S m)) with (length ls + length (tails ls) * S m).
    2:{ unfold tails. rewrite map_length. lia. }
    pose proof (loop_round (length (tails ls) * S m) [] ls [] act eq_refl Hl ltac:(discriminate) Hc) as R.
    cbn [app length] in R. rewrite R.
    rewrite IH.
    + now rewrite (round_robin_step ls).
    + unfold tails. rewrite map_length, visit_length; auto.
    + rewrite list_max_tails. lia.
    + apply consistent_step; auto.
Qed.

(** The loop never runs out of fuel, and computes the round-robin reading. *)
Theorem intersperse_total ls : intersperse_opt ls = Some (round_robin ls).
Proof.
  unfold intersperse_opt, intersperse_fuel. apply loop_rounds.
  - now rewrite map_length.
  - lia.
  - clear. induction ls as [|l ls IH]; constructor; auto. discriminate.
Qed.

Lemma intersperse_spec ls : intersperse ls = round_robin ls.
Proof. unfold intersperse. now rewrite intersperse_total. Qed.

Lemma heads_tails_perm ls : Permutation (heads ls ++ concat (tails ls)) (concat ls).
Proof.
  induction ls as [|l ls IH]; simpl; [constructor|].
  destruct l as [|x l]; simpl; [exact IH|].
  constructor. rewrite app_assoc. rewrite (Permutation_app_comm _ l). rewrite <- app_assoc.
  now apply Permutation_app_head.
Qed.

Lemma round_robin_perm ls : Permutation (round_robin ls) (concat ls).
Proof.
  remember (list_max (map (@length A) ls)) as m eqn:Hm.
  assert (Hle : list_max (map (@length A) ls) <= m) by lia. clear Hm.
  revert ls Hle. induction m as [|m IH]; intros ls Hle.
  - unfold round_robin. assert (list_max (map (@length A) ls) = 0) as -> by lia. simpl.
    assert (concat ls = []) as ->; [|constructor].
    apply list_max_le in Hle. induction ls as [|l ls IHl]; simpl in *; auto.
    inversion Hle; subst. destruct l; simpl in *; [now apply IHl|lia].
  - rewrite round_robin_step. rewrite (IH (tails ls)).
    + apply heads_tails_perm.
    + rewrite list_max_tails. lia.
Qed.

Lemma intersperse_perm ls : Permutation (intersperse ls) (concat ls).
Proof. rewrite intersperse_spec. apply round_robin_perm. Qed.

End Intersperse.
