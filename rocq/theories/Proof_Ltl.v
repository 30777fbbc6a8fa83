From Coq Require Import List NArith QArith Bool Lia.
From Verif Require Import Model_Map Proof_Map Model_Ltl Spec_Ltl.
Import ListNotations.
Local Open Scope nat_scope.

Lemma present_incl cur t : NoDup t -> (ids_present cur t = true <-> incl t cur).
Proof.
  intros Hn. unfold ids_present. rewrite forallb_forall. split.
  - intros H i Hi. specialize (H i Hi). apply Nat.leb_le in H. apply (count_occ_In N.eq_dec).
    apply (count_occ_In N.eq_dec) in Hi. lia.
  - intros H i Hi. apply Nat.leb_le. pose proof (proj1 (NoDup_count_occ N.eq_dec t) Hn i).
    specialize (H i Hi). apply (count_occ_In N.eq_dec) in H. lia.
Qed.

Lemma add_known_app k a b : add_known k (a ++ b) = add_known (add_known k a) b.
Proof. unfold add_known. apply fold_left_app. Qed.

Lemma add_known_In l : forall k i, In i (map fst (add_known k l)) <-> In i (map fst k) \/ In i l.
Proof.
  assert (K : forall (k i : N) (s : kmap unit), In i (map fst (m_insert k tt s)) <-> i = k \/ In i (map fst s)).
  { intros k i s.
    assert (D : forall m : kmap unit, In i (map fst m) <-> m_find i m <> None).
    { intros m. destruct (m_find i m) eqn:E.
      - split; [discriminate|]. intros _. apply m_find_In in E. apply in_map_iff. exists (i, u); auto.
      - apply m_find_None_notin in E. split; [tauto|congruence]. }
    rewrite !D. destruct (N.eq_dec i k) as [->|Hne].
    - rewrite m_find_insert_same. split; [auto|discriminate].
    - rewrite m_find_insert_other by exact Hne. tauto. }
  induction l as [|x l IH]; intros k i; cbn [add_known fold_left]; [cbn; tauto|].
  fold (add_known (m_insert x tt k) l). rewrite IH, K. cbn [In]. intuition congruence.
Qed.

Section P.
  Variable M : Monitor.
  Notation ids := (rs_ids M).

  Lemma eval_states_spec labels l : forall v g rs v' g',
    eval_states M labels l v g = (rs, v', g') ->
    rs = map (fun r => fst (aut_final M (fst (aut_eval M labels r)))) l /\
    v' = v + list_sum (map (fun r => if Qeq_bool (snd (aut_eval M labels r)) 0 then 0 else 1) l) /\
    g' = g + length (filter (fun r => nonzero (snd (aut_final M (fst (aut_eval M labels r))))) l).
  Proof.
    induction l as [|r l IH]; intros v g rs v' g'; cbn [eval_states map filter length list_sum fold_right].
    - intros H; injection H as <- <- <-. cbn. auto.
    - destruct (eval_states M labels l _ _) as [[rs2 v2] g2] eqn:E. apply IH in E as (-> & -> & ->).
      intros H; injection H as <- <- <-. split; [reflexivity|].
      split.
      + unfold nonzero. destruct (Qeq_bool (snd (aut_eval M labels r)) 0); cbn [negb]; unfold list_sum; cbn; lia.
      + destruct (nonzero (snd (aut_final M (fst (aut_eval M labels r))))); cbn [length]; lia.
  Qed.

  (* the state after a step in closed form *)
  Lemma observe_state s o s' n : ltl_observe M s o = (s', n) ->
    rule_states s' = map (advance o) (rule_states (update_states M s (o_others o))) /\
    safety_violations s' = safety_violations s +
      list_sum (map (penalised o) (rule_states (update_states M s (o_others o)))) /\
    known_agents s' = known_agents (update_states M s (o_others o)) /\
    n = safety_violations s' +
        length (filter (fun r => nonzero (snd (aut_final M (fst (aut_eval M (evaluate_labels M (o_labels o)) r)))))
                 (rule_states (update_states M s (o_others o)))).
  Proof.
    unfold ltl_observe. destruct (eval_states M _ _ _ _) as [[rs v] g] eqn:E.
    apply eval_states_spec in E as (-> & -> & ->). intros H; injection H as <- <-. cbn.
    assert (V : safety_violations (update_states M s (o_others o)) = safety_violations s)
      by (unfold update_states; destruct (is_agent_specific M); reflexivity).
    rewrite V. repeat split; reflexivity.
  Qed.

  Fixpoint orun (s : ltl_state M) (H : list (obs M)) : ltl_state M :=
    match H with [] => s | o :: r => orun (fst (ltl_observe M s o)) r end.

  Lemma run_made s h : fst (ltl_run M s h) = orun s (made h).
  Proof.
    revert s; induction h as [|[o|] h IH]; intros s; cbn [ltl_run fst made flat_map orun app ltl_eval]; auto.
  Qed.
  Lemma orun_app s a b : orun s (a ++ b) = orun (orun s a) b.
  Proof. revert s; induction a as [|o a IH]; intros s; cbn; auto. Qed.

  Lemma violations_mono_obs s o : safety_violations s <= safety_violations (fst (ltl_observe M s o)).
  Proof.
    destruct (ltl_observe M s o) as [s' n] eqn:E. apply observe_state in E as (_ & E & _). cbn. lia.
  Qed.

  Section Specific.
    Hypothesis Hspec : is_agent_specific M = true.
    Variable wanted : list N -> Prop.
    Hypothesis Hok : monitor_ok M wanted.

    Definition nodup_obs (H : list (obs M)) : Prop := Forall (fun o => NoDup (o_others o)) H.

    Lemma advance_ids o r : ids (advance o r) = ids r.
    Proof. unfold advance. rewrite (mo_final_ids _ _ Hok), (mo_eval_ids _ _ Hok). reflexivity. Qed.

    Lemma map_advance_ids o l : map ids (map (advance o) l) = map ids l.
    Proof. rewrite map_map. apply map_ext. apply advance_ids. Qed.

    Lemma orun_known H : known_agents (orun (mkLtl 0 [] []) H) = add_known [] (flat_map o_others H).
    Proof.
      induction H as [|o H IH] using rev_ind; [reflexivity|]. rewrite orun_app. cbn [orun].
      destruct (ltl_observe M _ o) as [s' n] eqn:E. apply observe_state in E as (_ & _ & E & _). cbn [fst].
      rewrite E. unfold update_states. rewrite Hspec. cbn [known_agents]. rewrite IH.
      rewrite flat_map_app. cbn [flat_map]. rewrite app_nil_r, add_known_app. reflexivity.
    Qed.

    Lemma known_In H i : In i (map fst (known_agents (orun (mkLtl 0 [] []) H))) <->
      exists j o, nth_error H j = Some o /\ In i (o_others o).
    Proof.
      rewrite orun_known, add_known_In, in_flat_map. cbn [map In]. split.
      - intros [[]|(o & Ho & Hi)]. apply In_nth_error in Ho as [j Hj]. eauto.
      - intros (j & o & Hj & Hi). right. exists o. split; [eapply nth_error_In; eauto|exact Hi].
    Qed.

    Lemma nth_snoc (H : list (obs M)) (o : obs M) k : k < length H -> nth_error (H ++ [o]) k = nth_error H k.
    Proof. intros. apply nth_error_app1. auto. Qed.
    Lemma nth_snoc_last (H : list (obs M)) (o : obs M) : nth_error (H ++ [o]) (length H) = Some o.
    Proof. rewrite nth_error_app2 by lia. rewrite Nat.sub_diag. reflexivity. Qed.

    Lemma monitored_main H : nodup_obs H ->
      NoDup (map ids (rule_states (orun (mkLtl 0 [] []) H))) /\
      forall t, In t (map ids (rule_states (orun (mkLtl 0 [] []) H))) <-> exists m, monitored_since wanted H m t.
    Proof.
      induction H as [|o H IH] using rev_ind; intros Hn.
      - split; [constructor|]. intros t. cbn. split; [intros []|]. intros (m & L & _). cbn in L. lia.
      - apply Forall_app in Hn as [Hn Ho]. inversion Ho as [|? ? Ho' _]; subst.
        destruct (IH Hn) as [ND IF]. rewrite orun_app. cbn [orun].
        set (s := orun (mkLtl 0 [] []) H) in *.
        destruct (ltl_observe M s o) as [s' n] eqn:E. apply observe_state in E as (E & _). cbn [fst].
        rewrite E, map_advance_ids. unfold update_states. rewrite Hspec. cbn [rule_states].
        destruct (mo_new _ _ Hok (o_others o) (map fst (known_agents s)) Ho') as [NDn IFn].
        assert (W : forall t, In t (map ids (rule_states s)) -> wanted t).
        { intros t Ht. apply IF in Ht as (m & _ & H1 & _). exact H1. }
        assert (Seen : forall t i, In t (map ids (rule_states s)) -> In i t -> In i (map fst (known_agents s))).
        { intros t i Ht Hi. apply IF in Ht as (m & L & _ & _ & P).
          destruct (P m ltac:(lia)) as (om & Em & Im). apply known_In. exists m, om. split; [exact Em|]. apply Im, Hi. }
        assert (NDa : NoDup (map ids (rule_states s ++ make_new M (o_others o) (map fst (known_agents s))))).
        { rewrite map_app. revert ND Seen. generalize (map ids (rule_states s)) as l1.
          induction l1 as [|t l1 IHl]; intros ND1 Seen1; [exact NDn|]. cbn. inversion ND1; subst. constructor.
          - intros Hin. apply in_app_or in Hin as [Hin|Hin]; [tauto|]. apply IFn in Hin as (_ & _ & i & Hi & Hk).
            apply Hk. apply (Seen1 t i); [now left|exact Hi].
          - apply IHl; [assumption|]. intros t' i Ht' Hi. apply (Seen1 t' i); [now right|exact Hi]. }
        assert (FI : forall t, In t (map ids (remove_rule_states M (o_others o)
                        (rule_states s ++ make_new M (o_others o) (map fst (known_agents s))))) <->
                     In t (map ids (rule_states s ++ make_new M (o_others o) (map fst (known_agents s)))) /\
                     incl t (o_others o)).
        { intros t. rewrite !in_map_iff. unfold remove_rule_states. split.
          - intros (r & <- & Hr). apply filter_In in Hr as [Hr Hp]. split; [exists r; auto|].
            apply present_incl; [|exact Hp]. apply (mo_wanted _ _ Hok).
            apply in_app_or in Hr as [Hr|Hr]; [apply W, in_map, Hr|].
            apply (in_map ids) in Hr. apply IFn in Hr. tauto.
          - intros [(r & <- & Hr) Hp]. exists r. split; [reflexivity|]. apply filter_In. split; [exact Hr|].
            apply present_incl; [|exact Hp]. apply (mo_wanted _ _ Hok).
            apply in_app_or in Hr as [Hr|Hr]; [apply W, in_map, Hr|].
            apply (in_map ids) in Hr. apply IFn in Hr. tauto. }
        split.
        + unfold remove_rule_states. clear - NDa. induction (rule_states s ++ _) as [|r l IHl]; cbn; [constructor|].
          inversion NDa as [|? ? Nx Nl]; subst. destruct (ids_present _ _); cbn; [|auto]. constructor; [|auto].
          intros Hin. apply Nx. apply in_map_iff in Hin as (r' & <- & Hr'). apply filter_In in Hr' as [Hr' _].
          apply in_map, Hr'.
        + intros t. rewrite FI, map_app, in_app_iff, IF, IFn. split.
          * intros [[(m & L & Hw & (i & Hi & Hu) & P)|(Hw & Hin & i & Hi & Hk)] Hp].
            -- exists m. split; [rewrite app_length; lia|]. split; [exact Hw|]. split.
               ++ exists i. split; [exact Hi|]. intros j oj Lj Ej. rewrite nth_snoc in Ej by lia. exact (Hu j oj Lj Ej).
               ++ intros k Lk. rewrite app_length in Lk. cbn in Lk. destruct (Nat.eq_dec k (length H)) as [->|Hne].
                  ** exists o. split; [apply nth_snoc_last|exact Hp].
                  ** destruct (P k ltac:(lia)) as (ok & Ek & Ik). exists ok. split; [rewrite nth_snoc by lia; exact Ek|exact Ik].
            -- exists (length H). split; [rewrite app_length; cbn; lia|]. split; [exact Hw|]. split.
               ++ exists i. split; [exact Hi|]. intros j oj Lj Ej. rewrite nth_snoc in Ej by lia. intros Hi'.
                  apply Hk. apply known_In. eauto.
               ++ intros k Lk. rewrite app_length in Lk. cbn in Lk. assert (k = length H) by lia. subst k.
                  exists o. split; [apply nth_snoc_last|exact Hp].
          * intros (m & L & Hw & (i & Hi & Hu) & P). rewrite app_length in L. cbn in L.
            assert (Hp : incl t (o_others o)).
            { destruct (P (length H)) as (o' & Eo & Io); [rewrite app_length; cbn; lia|].
              rewrite nth_snoc_last in Eo. injection Eo as <-. exact Io. }
            split; [|exact Hp]. destruct (Nat.eq_dec m (length H)) as [->|Hne].
            -- right. split; [exact Hw|]. split; [exact Hp|]. exists i. split; [exact Hi|]. intros Hk.
               apply known_In in Hk as (j & oj & Ej & Hj).
               assert (Lj : j < length H) by (apply nth_error_Some; congruence).
               apply (Hu j oj Lj); [rewrite nth_snoc by exact Lj; exact Ej|exact Hj].
            -- left. exists m. split; [lia|]. split; [exact Hw|]. split.
               ++ exists i. split; [exact Hi|]. intros j oj Lj Ej. apply (Hu j oj Lj). rewrite nth_snoc by lia. exact Ej.
               ++ intros k Lk. destruct (P k) as (ok & Ek & Ik); [rewrite app_length; cbn; lia|]. exists ok.
                  rewrite nth_snoc in Ek by lia. auto.
    Qed.

    (* ---- counting ---- *)
    Lemma list_sum_app a b : list_sum (a ++ b) = list_sum a + list_sum b.
    Proof. induction a; unfold list_sum in *; cbn; lia. Qed.

    Lemma all_present_incl r o : all_present r o = true <-> incl (ids r) (o_others o).
    Proof.
      unfold all_present. rewrite forallb_forall. split; intros H i Hi.
      - specialize (H i Hi). apply existsb_exists in H as (x & Hx & E). apply N.eqb_eq in E. subst. exact Hx.
      - apply existsb_exists. exists i. split; [apply H, Hi|apply N.eqb_refl].
    Qed.

    Lemma present_all_present r o : NoDup (ids r) -> ids_present (o_others o) (ids r) = all_present r o.
    Proof.
      intros Hn. apply eq_true_iff_eq. rewrite present_incl by exact Hn. symmetry. apply all_present_incl.
    Qed.

    Definition epi (r : RS M) (H : list (obs M)) : nat := episode (all_present r) r H.

    Lemma episode_ext (a b : obs M -> bool) (r : RS M) H : (forall o, a o = b o) -> episode a r H = episode b r H.
    Proof. intros E. revert r; induction H as [|o H IH]; intros r; cbn; auto. rewrite E, IH. reflexivity. Qed.

    Lemma epi_cons r o H : epi r (o :: H) = if all_present r o then penalised o r + epi (advance o r) H else 0.
    Proof.
      unfold epi. cbn [episode]. destruct (all_present r o); [|reflexivity]. f_equal.
      apply episode_ext. intros o'. unfold all_present. rewrite advance_ids. reflexivity.
    Qed.

    Definition wanted_states (l : list (RS M)) : Prop := Forall (fun r => NoDup (ids r)) l.

    Fixpoint sum_new (known : kmap unit) (H : list (obs M)) : nat :=
      match H with
      | [] => 0
      | o :: H' => list_sum (map (fun r => epi r H) (make_new M (o_others o) (map fst known)))
                   + sum_new (add_known known (o_others o)) H'
      end.

    Lemma filter_sum (f : RS M -> bool) (g : RS M -> nat) l :
      list_sum (map g (filter f l)) = list_sum (map (fun r => if f r then g r else 0) l).
    Proof. induction l as [|r l IH]; cbn; auto. destruct (f r); cbn; unfold list_sum in *; cbn; lia. Qed.

    Lemma sum_ext (f g : RS M -> nat) l : Forall (fun r => f r = g r) l -> list_sum (map f l) = list_sum (map g l).
    Proof. induction 1 as [|r l E F IH]; unfold list_sum in *; cbn; lia. Qed.
    Lemma sum_plus (f g : RS M -> nat) l :
      list_sum (map (fun r => f r + g r) l) = list_sum (map f l) + list_sum (map g l).
    Proof. induction l as [|r l IH]; unfold list_sum in *; cbn; lia. Qed.

    Lemma orun_count H : forall s, nodup_obs H -> wanted_states (rule_states s) ->
      safety_violations (orun s H) =
      safety_violations s + list_sum (map (fun r => epi r H) (rule_states s)) + sum_new (known_agents s) H.
    Proof.
      induction H as [|o H IH]; intros s Hn Hw; cbn [orun sum_new].
      - assert (Z : list_sum (map (fun r => epi r []) (rule_states s)) = 0).
        { induction (rule_states s) as [|r l IHl]; cbn; auto. unfold list_sum in *. cbn. inversion Hw; auto. }
        lia.
      - inversion Hn as [|? ? Ho Hn']; subst.
        destruct (ltl_observe M s o) as [s' n] eqn:E. apply observe_state in E as (E1 & E2 & E3 & _). cbn [fst].
        unfold update_states in *. rewrite Hspec in *. cbn [rule_states known_agents safety_violations] in *.
        assert (Hall : wanted_states (rule_states s ++ make_new M (o_others o) (map fst (known_agents s)))).
        { apply Forall_app. split; [exact Hw|]. apply Forall_forall. intros r Hr.
          destruct (mo_new _ _ Hok (o_others o) (map fst (known_agents s)) Ho) as [_ IFn].
          apply (in_map ids) in Hr. apply IFn in Hr. apply (mo_wanted _ _ Hok). tauto. }
        set (l := rule_states s ++ make_new M (o_others o) (map fst (known_agents s))) in *.
        rewrite IH; [|exact Hn'|].
        2:{ rewrite E1. apply Forall_forall. intros r Hr. apply in_map_iff in Hr as (r' & <- & Hr').
            apply filter_In in Hr' as [Hr' _]. rewrite advance_ids.
            unfold wanted_states in Hall. rewrite Forall_forall in Hall. apply Hall, Hr'. }
        rewrite E2, E1, E3. cbn [known_agents]. rewrite map_map.
        assert (Q1 : list_sum (map (penalised o) (remove_rule_states M (o_others o) l)) +
                     list_sum (map (fun r => epi (advance o r) H) (remove_rule_states M (o_others o) l)) =
                     list_sum (map (fun r => epi r (o :: H)) l)).
        { rewrite <- sum_plus. unfold remove_rule_states. rewrite filter_sum. apply sum_ext.
          unfold wanted_states in Hall. rewrite Forall_forall in *. intros r Hr.
          rewrite present_all_present by (apply Hall, Hr). rewrite epi_cons. reflexivity. }
        assert (Q2 : list_sum (map (fun r => epi r (o :: H)) l) =
          list_sum (map (fun r => epi r (o :: H)) (rule_states s)) +
          list_sum (map (fun r => epi r (o :: H)) (make_new M (o_others o) (map fst (known_agents s))))).
        { unfold l. rewrite map_app. apply list_sum_app. }
        fold (add_known (known_agents s) (o_others o)). lia.
    Qed.

    Lemma sum_new_total H : forall pre,
      sum_new (add_known [] (flat_map o_others pre)) H =
      list_sum (map (fun m => list_sum (map (fun r => epi r (skipn m (pre ++ H))) (created (pre ++ H) m)))
                    (seq (length pre) (length H))).
    Proof.
      induction H as [|o H IH]; intros pre; cbn [sum_new length seq map]; [reflexivity|].
      unfold list_sum at 2. cbn [fold_right]. fold (list_sum). f_equal.
      - unfold created. rewrite nth_error_app2 by lia. rewrite Nat.sub_diag. cbn [nth_error].
        rewrite skipn_app, skipn_all, Nat.sub_diag. cbn [skipn app]. unfold seen.
        rewrite firstn_app, firstn_all, Nat.sub_diag. cbn [firstn]. rewrite app_nil_r. reflexivity.
      - specialize (IH (pre ++ [o])). rewrite flat_map_app in IH. cbn [flat_map] in IH. rewrite app_nil_r in IH.
        rewrite add_known_app in IH. rewrite IH. rewrite <- app_assoc. cbn [app]. rewrite app_length. cbn [length].
        rewrite Nat.add_1_r. reflexivity.
    Qed.

    Lemma count_main H : nodup_obs H ->
      safety_violations (orun (mkLtl 0 [] []) H) =
      total (fun m => list_sum (map (fun r => episode (all_present r) r (skipn m H)) (created H m))) (length H).
    Proof.
      intros Hn. rewrite orun_count; [|exact Hn|constructor]. cbn [rule_states safety_violations known_agents map].
      change (sum_new [] H) with (sum_new (add_known [] (flat_map o_others (@nil (obs M)))) H).
      rewrite sum_new_total. reflexivity.
    Qed.
  End Specific.

  Section Plain.
    Hypothesis Hspec : is_agent_specific M = false.
    Lemma plain_count r H : forall v k,
      safety_violations (orun (mkLtl v [r] k) H) = v + episode (fun _ => true) r H /\
      exists k', rule_states (orun (mkLtl v [r] k) H) = [fold_left (fun r o => advance o r) H r] /\
                 known_agents (orun (mkLtl v [r] k) H) = k'.
    Proof.
      revert r; induction H as [|o H IH]; intros r v k; cbn [orun episode fold_left].
      - cbn. split; [lia|eauto].
      - destruct (ltl_observe M _ o) as [s' n] eqn:E. apply observe_state in E as (E1 & E2 & E3 & _).
        cbn [fst]. unfold update_states in *. rewrite Hspec in *.
        cbn [rule_states safety_violations known_agents map list_sum fold_right] in *.
        destruct s' as [v' rs' k']. cbn in E1, E2, E3. subst rs' k'. destruct (IH (advance o r) v' k) as [A B].
        split; [rewrite A; lia|exact B].
    Qed.
  End Plain.
End P.
