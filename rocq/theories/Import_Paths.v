(** Paths and the names of imported files. *)
From Verif Require Import Base Base_Proofs Text_Model Tok_Model Conf_Model Decl_Model Import_Model Import_Spec.

Lemma names_of_app_slash a s : chr 47 ∉ a -> names_of (a ++ chr 47 :: s) = a :: names_of s.
Proof.
  induction a as [|c a IH]; intros H; cbn [app names_of].
  - rewrite bool_decide_true by reflexivity. reflexivity.
  - rewrite bool_decide_false by (intros ->; apply H; left). rewrite IH by (intros X; apply H; right; exact X). reflexivity.
Qed.
Lemma names_of_plain a : chr 47 ∉ a -> names_of a = [a].
Proof.
  induction a as [|c a IH]; intros H; cbn [names_of]; [reflexivity|].
  rewrite bool_decide_false by (intros ->; apply H; left). rewrite IH by (intros X; apply H; right; exact X). reflexivity.
Qed.
Lemma names_of_slashless s : Forall (fun n => chr 47 ∉ n) (names_of s).
Proof.
  induction s as [|c s IH]; cbn [names_of]; [constructor; [intros H; inversion H|constructor]|].
  case_bool_decide as Hc; [constructor; [intros H; inversion H|exact IH]|].
  destruct (names_of s) as [|n r]; [constructor; [|constructor]; intros H; apply elem_of_list_singleton in H; congruence|].
  inversion IH; subst. constructor; [|assumption]. intros H. apply elem_of_cons in H as [H|H]; [congruence|contradiction].
Qed.
Definition slashed (p : list str) : str := concat (map (fun n => $"/" ++ n) p).
Lemma spell_slashed p : p <> [] -> spell p = slashed p.
Proof. destruct p; [done|reflexivity]. Qed.
Lemma names_slashed p s : Forall good_name p -> (s = [] \/ exists t, s = chr 47 :: t) ->
  names_of (slashed p ++ s) = match p, s with [], _ => names_of s | _, _ => [] :: p ++ tl (names_of s) end.
Proof.
  intros Hp Hs. destruct p as [|n p]; [reflexivity|].
  assert (X : forall p n, Forall good_name (n :: p) -> names_of (n ++ slashed p ++ s) = n :: p ++ tl (names_of s)).
  { clear Hp n p. induction p as [|m p IH]; intros n Hp; inversion_clear Hp as [|? ? Hn Hp']; destruct Hn as (_ & Hn & _).
    - cbn [slashed map concat app]. destruct Hs as [->|(t & ->)]; [rewrite app_nil_r, names_of_plain by exact Hn; reflexivity|].
      rewrite names_of_app_slash by exact Hn. cbn [names_of]. rewrite bool_decide_true by reflexivity. reflexivity.
    - change (slashed (m :: p) ++ s) with (chr 47 :: (m ++ slashed p) ++ s). rewrite <- app_assoc.
      rewrite names_of_app_slash by exact Hn. rewrite (IH m Hp'). reflexivity. }
  change (slashed (n :: p) ++ s) with (chr 47 :: (n ++ slashed p) ++ s). rewrite <- app_assoc. cbn [names_of].
  rewrite bool_decide_true by reflexivity. rewrite (X p n Hp). reflexivity.
Qed.

Section Walk.
Context (fs : fsys).
Lemma good_not_special n : good_name n -> str_eqb n [] || str_eqb n ($".") = false /\ str_eqb n ($"..") = false.
Proof.
  intros (H1 & _ & H2 & H3). unfold str_eqb. rewrite !bool_decide_false by assumption. split; reflexivity.
Qed.
Lemma walk_cons acc n r : good_name n -> entry_at fs acc = Some Dir -> walk fs acc (n :: r) =
  match entry_at fs (acc ++ [n]) with Some _ => walk fs (acc ++ [n]) r | None => Missing (acc ++ [n]) end.
Proof. intros Hn Hd. destruct (good_not_special n Hn) as [E1 E2]. cbn [walk]. rewrite Hd, E1, E2. reflexivity. Qed.
Lemma walk_blank acc r : entry_at fs acc = Some Dir -> walk fs acc ([] :: r) = walk fs acc r.
Proof. intros Hd. cbn [walk]. rewrite Hd. reflexivity. Qed.
(** Along directories. *)
Lemma walk_dirs p : forall acc r, Forall good_name p -> tree_ok fs -> entry_at fs (acc ++ p) = Some Dir ->
  walk fs acc (p ++ r) = walk fs (acc ++ p) r.
Proof.
  induction p as [|n p IH]; intros acc r Hp T Hd; [rewrite app_nil_r; reflexivity|]. inversion_clear Hp as [|? ? Hn Hp'].
  assert (X : forall q, entry_at fs (acc ++ q) = Some Dir -> entry_at fs acc = Some Dir).
  { intros q. induction q as [|m q IHq] using rev_ind; [rewrite app_nil_r; done|]. intros H. apply IHq.
    destruct T as [T _]. rewrite app_assoc in H. apply T in H. exact H. }
  assert (Ha := X _ Hd). cbn [app]. rewrite walk_cons by assumption.
  replace (acc ++ n :: p) with ((acc ++ [n]) ++ p) in * by (rewrite <- app_assoc; reflexivity).
  assert (Y : entry_at fs (acc ++ [n]) = Some Dir).
  { revert Hd. generalize (acc ++ [n]). intros a. clear - T. induction p as [|m q IHq] using rev_ind; [rewrite app_nil_r; done|].
    intros H. apply IHq. destruct T as [T _]. rewrite app_assoc in H. apply T in H. exact H. }
  rewrite Y. apply IH; assumption.
Qed.
(** Whatever is found has good names. *)
Lemma walk_good ns : forall acc p, Forall good_name acc -> Forall (fun n => chr 47 ∉ n) ns ->
  walk fs acc ns = At p \/ walk fs acc ns = Missing p -> Forall good_name p.
Proof.
  induction ns as [|n ns IH]; intros acc p Ha Hn H; cbn [walk] in H.
  - destruct H as [H|H]; [injection H as <-; exact Ha|discriminate].
  - inversion_clear Hn as [|? ? Hn1 Hn2]. destruct (entry_at fs acc) as [[|]|]; [|destruct H; discriminate|destruct H as [H|H]; [discriminate|injection H as <-; exact Ha]].
    destruct (str_eqb n [] || str_eqb n ($".")) eqn:B1; [eapply IH; eauto|].
    destruct (str_eqb n ($"..")) eqn:B2.
    + eapply IH; [|exact Hn2|exact H]. clear - Ha. destruct acc as [|x acc] using rev_ind; [constructor|]. rewrite removelast_last.
      apply Forall_app in Ha as [Ha _]. exact Ha.
    + assert (G : good_name n).
      { apply orb_false_iff in B1 as [B1 B3]. unfold str_eqb in *. apply bool_decide_eq_false in B1, B2, B3. split; [exact B1|]. split; [exact Hn1|]. split; assumption. }
      assert (Forall good_name (acc ++ [n])) by (apply Forall_app; split; [exact Ha|constructor; [exact G|constructor]]).
      destruct (entry_at fs (acc ++ [n])); [eapply IH; eauto|]. destruct H as [H|H]; [discriminate|injection H as <-; assumption].
Qed.
End Walk.

Section Paths.
Context (fs : fsys) (cwd : list str) (Cwd : Forall good_name cwd) (T : tree_ok fs).

Lemma find_good s p : find_path fs cwd s = At p \/ find_path fs cwd s = Missing p -> Forall good_name p.
Proof.
  intros H. unfold find_path in H. destruct s as [|c s].
  - destruct H as [H|H]; [discriminate|injection H as <-; exact Cwd].
  - eapply walk_good; [|apply names_of_slashless|exact H]. case_bool_decide; [constructor|exact Cwd].
Qed.
Lemma full_good s t : full_name fs cwd s = Ok t -> exists p, Forall good_name p /\ t = spell p.
Proof.
  unfold full_name. destruct s as [|c s]; [discriminate|]. destruct (find_path fs cwd (c :: s)) as [p|p|] eqn:F; [| |discriminate];
    intros H; injection H as <-; exists p; split; [|reflexivity| |reflexivity]; apply (find_good (c :: s)); auto.
Qed.
(** Looking for the text of a path finds the path. *)
Lemma find_spell p : Forall good_name p -> find_path fs cwd (spell p) = walk fs [] p.
Proof.
  intros Hp. destruct p as [|n p]; [reflexivity|]. rewrite spell_slashed by discriminate. unfold find_path.
  destruct (slashed (n :: p)) as [|c s] eqn:S; [discriminate S|]. assert (c = chr 47) as -> by (injection S as <- _; reflexivity).
  rewrite bool_decide_true by reflexivity. rewrite <- S, <- (app_nil_r (slashed (n :: p))).
  rewrite (names_slashed (n :: p) [] Hp) by auto. cbn [names_of tl]. rewrite app_nil_r. apply walk_blank. reflexivity.
Qed.
Lemma walk_there p : Forall good_name p -> forall e, entry_at fs p = Some e -> walk fs [] p = At p.
Proof.
  intros Hp e He. destruct p as [|n p] using rev_ind; [reflexivity|]. clear IHp. apply Forall_app in Hp as [Hp Hn].
  assert (D : entry_at fs p = Some Dir) by (destruct T as [T1 _]; eapply T1; exact He).
  rewrite (walk_dirs fs p [] [n]) by assumption. cbn [app]. inversion_clear Hn. rewrite walk_cons by assumption. rewrite He. reflexivity.
Qed.
Lemma walk_found ns : Forall good_name ns -> forall acc p, walk fs acc ns = At p -> p = acc ++ ns.
Proof.
  induction ns as [|n ns IH]; intros H acc p W; [cbn in W; injection W as <-; rewrite app_nil_r; reflexivity|].
  inversion_clear H as [|? ? Hn H']. destruct (entry_at fs acc) as [[|c]|] eqn:Ea.
  - rewrite walk_cons in W by assumption. destruct (entry_at fs (acc ++ [n])); [|discriminate]. apply IH in W; [|exact H'].
    rewrite <- app_assoc in W. exact W.
  - cbn [walk] in W. rewrite Ea in W. discriminate.
  - cbn [walk] in W. rewrite Ea in W. discriminate.
Qed.
Lemma walk_at_there ns : forall acc p, entry_at fs acc <> None -> walk fs acc ns = At p -> entry_at fs p <> None.
Proof.
  induction ns as [|n ns IH]; intros acc p Ha W; cbn [walk] in W; [injection W as <-; exact Ha|].
  destruct (entry_at fs acc) as [[|c]|] eqn:Ea; [|discriminate|discriminate].
  destruct (str_eqb n [] || str_eqb n ($".")); [eapply IH; [|exact W]; congruence|]. destruct (str_eqb n ($"..")).
  - eapply IH; [|exact W]. destruct acc as [|x acc] using rev_ind; [discriminate|]. rewrite removelast_last.
    destruct T as [T1 _]. rewrite (T1 _ _ _ Ea). discriminate.
  - destruct (entry_at fs (acc ++ [n])) eqn:En; [eapply IH; [|exact W]; congruence|discriminate].
Qed.
Lemma exists_spell p : Forall good_name p -> file_exists fs cwd (spell p) = is_there fs p.
Proof.
  intros Hp. unfold file_exists, is_there. assert (spell p <> []) as N by (destruct p; discriminate).
  destruct (spell p) eqn:S; [done|]. rewrite <- S. rewrite find_spell by exact Hp. destruct (entry_at fs p) eqn:Ee.
  - erewrite walk_there by eauto. reflexivity.
  - destruct (walk fs [] p) eqn:W; try reflexivity. pose proof (walk_found p Hp [] _ W) as X. cbn in X. subst.
    apply walk_at_there in W; [congruence|discriminate].
Qed.

Lemma spell_ext p n e : spell (p ++ [n]) ++ e = spell (p ++ [n ++ e]).
Proof.
  rewrite !spell_slashed by (destruct p; discriminate). unfold slashed. rewrite !map_app, !concat_app. cbn [map concat].
  rewrite !app_nil_r, <- !app_assoc. reflexivity.
Qed.
Lemma good_ext n e : good_name n \/ n = [] -> (3 <= length e)%nat -> chr 47 ∉ e -> good_name (n ++ e).
Proof.
  intros Hn He Hs. assert (L : (3 <= length (n ++ e))%nat) by (rewrite app_length; lia). split; [|split; [|split]].
  - intros H. rewrite H in L. cbn in L. lia.
  - intros H. apply elem_of_app in H as [H|H]; [|auto]. destruct Hn as [(_ & Hn & _)|Hn]; [auto|subst; inversion H].
  - intros H. rewrite H in L. cbn in L. lia.
  - intros H. rewrite H in L. cbn in L. lia.
Qed.
Lemma slang_good n : good_name n \/ n = [] -> good_name (n ++ $".slang").
Proof. intros H. apply good_ext; [exact H|cbn; lia|]. intros X. repeat (apply elem_of_cons in X as [X|X]; [discriminate X|]). inversion X. Qed.
Lemma os_good n : good_name n \/ n = [] -> good_name (n ++ $".os").
Proof. intros H. apply good_ext; [exact H|cbn; lia|]. intros X. repeat (apply elem_of_cons in X as [X|X]; [discriminate X|]). inversion X. Qed.

(** ** Imports seen from a folder *)
Lemma find_in_folder d t j : folder_text d t -> Forall good_name d -> entry_at fs d = Some Dir ->
  find_path fs cwd (t ++ $"/" ++ j) = walk fs d (names_of j).
Proof.
  intros Ht Hd Dd. destruct Ht as [->|[-> ->]]; [|change (walk fs [] ([] :: [] :: names_of j) = walk fs [] (names_of j)); rewrite !walk_blank by reflexivity; reflexivity].
  destruct d as [|n p]; [change (walk fs [] ([] :: [] :: [] :: names_of j) = walk fs [] (names_of j)); rewrite !walk_blank by reflexivity; reflexivity|].
  rewrite spell_slashed by discriminate. rewrite <- app_assoc. unfold find_path.
  assert (Hc : exists r, slashed (n :: p) ++ $"/" ++ $"/" ++ j = chr 47 :: r) by (eexists; reflexivity). destruct Hc as (r & Hc).
  rewrite Hc. rewrite bool_decide_true by reflexivity. rewrite <- Hc.
  rewrite (names_slashed (n :: p) ($"/" ++ $"/" ++ j) Hd) by (right; eexists; reflexivity).
  change (names_of ($"/" ++ $"/" ++ j)) with ([] :: [] :: names_of j). cbn [tl]. rewrite walk_blank by reflexivity.
  rewrite (walk_dirs fs (n :: p) [] _ Hd T Dd). apply walk_blank. exact Dd.
Qed.
Definition undot (s : str) : str := map (fun c => if is_dot c then chr 47 else c) s.
Lemma undot_plain n : plain n -> undot n = n.
Proof.
  intros (_ & _ & Hd). unfold undot. induction n as [|c n IH]; [reflexivity|]. cbn [map]. unfold is_dot at 1.
  rewrite bool_decide_false by (intros ->; apply Hd; left). f_equal. apply IH. intros H. apply Hd. right. exact H.
Qed.
Lemma names_dots ns : ns <> [] -> Forall plain ns -> names_of (undot (dots ns)) = ns.
Proof.
  induction ns as [|n ns IH]; intros N H; [done|]. inversion_clear H as [|? ? Hn H']. destruct ns as [|m ns].
  - cbn [dots]. rewrite undot_plain by exact Hn. apply names_of_plain. apply Hn.
  - change (dots (n :: m :: ns)) with (n ++ $"." ++ dots (m :: ns)). unfold undot. rewrite !map_app. fold (undot n). rewrite undot_plain by exact Hn.
    change (map (fun c => if is_dot c then chr 47 else c) ($".")) with [chr 47]. change (n ++ [chr 47] ++ ?x) with (n ++ chr 47 :: x).
    cbn [app]. rewrite names_of_app_slash by apply Hn. f_equal. apply IH; [discriminate|exact H'].
Qed.
Lemma plain_good n : plain n -> good_name n.
Proof.
  intros (H1 & H2 & H3). split; [exact H1|]. split; [exact H2|]. split; intros ->; apply H3; left.
Qed.
Lemma plain_goods ns : Forall plain ns -> Forall good_name ns.
Proof. intros H. eapply Forall_impl; [exact H|]. exact plain_good. Qed.
Lemma real_path_dots d t ns n : folder_text d t -> Forall good_name d -> Forall plain (ns ++ [n]) ->
  entry_at fs (d ++ ns) = Some Dir -> real_path fs cwd t (dots (ns ++ [n])) = Ok (spell (d ++ ns ++ [n])).
Proof.
  intros Ht Hd Hn Dn. unfold real_path, build_path, full_name. fold (undot (dots (ns ++ [n]))).
  destruct (t ++ $"/" ++ undot (dots (ns ++ [n]))) eqn:S; [destruct t; discriminate S|]. rewrite <- S.
  assert (Dd : entry_at fs d = Some Dir).
  { clear - T Dn. induction ns as [|m q IHq] using rev_ind; [rewrite app_nil_r in Dn; exact Dn|]. apply IHq.
    destruct T as [T1 _]. rewrite app_assoc in Dn. apply T1 in Dn. exact Dn. }
  rewrite (find_in_folder d t _ Ht Hd Dd). rewrite names_dots by (assumption || (destruct ns; discriminate)).
  apply plain_goods in Hn. apply Forall_app in Hn as [Hns Hn]. rewrite (walk_dirs fs ns d [n]) by assumption.
  inversion_clear Hn. rewrite walk_cons by assumption. rewrite app_assoc. destruct (entry_at fs ((d ++ ns) ++ [n])); reflexivity.
Qed.
Lemma there_prefix p q : entry_at fs (p ++ q) <> None -> q <> [] -> entry_at fs p = Some Dir.
Proof.
  destruct T as [T1 _]. revert p. induction q as [|m q IH] using rev_ind; intros p H N; [done|]. rewrite app_assoc in H.
  destruct (entry_at fs ((p ++ q) ++ [m])) eqn:Ee; [|done]. apply T1 in Ee. destruct q as [|x q]; [rewrite app_nil_r in Ee; exact Ee|].
  apply IH; [congruence|discriminate].
Qed.
Lemma real_all q : q <> [] -> Forall good_name q -> (forall c, entry_at fs q <> Some (File c)) ->
  (entry_at fs q = None -> exists q' n, q = q' ++ [n] /\ entry_at fs q' = Some Dir) ->
  real_path fs cwd (spell q) ($"/All") = Ok (match entry_at fs q with Some _ => spell (q ++ [$"All"]) | None => spell q end).
Proof.
  intros Nq Hq NF Par. unfold real_path, build_path, full_name.
  change (map (fun c => if is_dot c then chr 47 else c) ($"/All")) with ($"/All").
  destruct (spell q ++ $"/" ++ $"/All") eqn:S; [destruct q; discriminate S|]. rewrite <- S. clear S.
  assert (F : find_path fs cwd (spell q ++ $"/" ++ $"/All") = walk fs [] (q ++ [[]; $"All"])).
  { rewrite spell_slashed by exact Nq. unfold find_path. destruct q as [|n p]; [done|].
    assert (Hc : exists r, slashed (n :: p) ++ $"/" ++ $"/All" = chr 47 :: r) by (eexists; reflexivity). destruct Hc as (r & Hc).
    rewrite Hc. rewrite bool_decide_true by reflexivity. rewrite <- Hc.
    rewrite (names_slashed (n :: p) ($"/" ++ $"/All") Hq) by (right; eexists; reflexivity).
    change (names_of ($"/" ++ $"/All")) with ([] :: [] :: [$"All"]). cbn [tl]. apply walk_blank. reflexivity. }
  rewrite F. clear F.
  assert (GA : good_name ($"All")).
  { split; [discriminate|]. split; [|split; discriminate]. intros X. repeat (apply elem_of_cons in X as [X|X]; [discriminate X|]). inversion X. }
  destruct (entry_at fs q) as [[|c]|] eqn:Eq.
  - rewrite (walk_dirs fs q [] _ Hq T Eq). cbn [app]. rewrite walk_blank by exact Eq. rewrite walk_cons by assumption.
    destruct (entry_at fs (q ++ [$"All"])); reflexivity.
  - exfalso. apply (NF c). reflexivity.
  - destruct (Par eq_refl) as (q' & n & -> & D). apply Forall_app in Hq as [Hq Hn]. inversion_clear Hn. rewrite <- app_assoc.
    rewrite (walk_dirs fs q' [] _ Hq T D). cbn [app]. rewrite walk_cons by assumption. rewrite Eq. reflexivity.
Qed.

Theorem resolution d t ns n : folder_text d t -> Forall good_name d -> Forall plain (ns ++ [n]) ->
  entry_at fs (d ++ ns) = Some Dir -> (forall c, entry_at fs (d ++ ns ++ [n]) <> Some (File c)) ->
  match first_there fs (candidates d ns n) with
  | Some c => names_file fs cwd t (dots (ns ++ [n])) (spell c)
  | None => names_none fs cwd t (dots (ns ++ [n]))
  end.
Proof.
  intros Ht Hd Hn Dn NF. assert (Hg := plain_goods _ Hn). apply Forall_app in Hg as [Hns Hg]. apply Forall_inv in Hg.
  set (q := d ++ ns) in *. assert (Hq : Forall good_name q) by (apply Forall_app; auto).
  assert (Hqn : Forall good_name (q ++ [n])) by (apply Forall_app; auto).
  assert (Eqn : d ++ ns ++ [n] = q ++ [n]) by (unfold q; rewrite app_assoc; reflexivity). rewrite Eqn in NF.
  assert (Es : file_exists fs cwd (spell (q ++ [n]) ++ $".slang") = is_there fs (q ++ [n ++ $".slang"])).
  { rewrite spell_ext. apply exists_spell. apply Forall_app. split; [exact Hq|]. constructor; [apply slang_good; auto|constructor]. }
  assert (Eo : file_exists fs cwd (spell (q ++ [n]) ++ $".os") = is_there fs (q ++ [n ++ $".os"])).
  { rewrite spell_ext. apply exists_spell. apply Forall_app. split; [exact Hq|]. constructor; [apply os_good; auto|constructor]. }
  assert (GA : good_name ($"All")).
  { split; [discriminate|]. split; [|split; discriminate]. intros X. repeat (apply elem_of_cons in X as [X|X]; [discriminate X|]). inversion X. }
  assert (As : file_exists fs cwd (spell ((q ++ [n]) ++ [$"All"]) ++ $".slang") = is_there fs ((q ++ [n]) ++ [$"All.slang"])).
  { rewrite spell_ext. apply exists_spell. apply Forall_app. split; [exact Hqn|]. constructor; [apply (slang_good ($"All")); auto|constructor]. }
  assert (Ao : file_exists fs cwd (spell ((q ++ [n]) ++ [$"All"]) ++ $".os") = is_there fs ((q ++ [n]) ++ [$"All.os"])).
  { rewrite spell_ext. apply exists_spell. apply Forall_app. split; [exact Hqn|]. constructor; [apply (os_good ($"All")); auto|constructor]. }
  assert (Ra : real_path fs cwd (spell (q ++ [n])) ($"/All") =
    Ok (match entry_at fs (q ++ [n]) with Some _ => spell ((q ++ [n]) ++ [$"All"]) | None => spell (q ++ [n]) end)).
  { apply real_all; [destruct q; discriminate|exact Hqn|exact NF|]. intros _. exists q, n. split; [reflexivity|exact Dn]. }
  assert (B : build_filename fs cwd t (dots (ns ++ [n])) =
    if is_there fs (q ++ [n ++ $".slang"]) then Ok (spell (q ++ [n ++ $".slang"]))
    else if is_there fs (q ++ [n ++ $".os"]) then Ok (spell (q ++ [n ++ $".os"]))
    else match entry_at fs (q ++ [n]) with
         | Some _ => if is_there fs ((q ++ [n]) ++ [$"All.slang"]) then Ok (spell ((q ++ [n]) ++ [$"All.slang"]))
                     else Ok (spell ((q ++ [n]) ++ [$"All.os"]))
         | None => Ok (spell (q ++ [n ++ $".os"]))
         end).
  { unfold build_filename. rewrite (real_path_dots d t ns n) by assumption. rewrite Eqn. cbn [rbind]. rewrite Es, Eo, !spell_ext.
    destruct (is_there fs (q ++ [n ++ $".slang"])) eqn:I1; [reflexivity|]. destruct (is_there fs (q ++ [n ++ $".os"])); [reflexivity|].
    rewrite Ra. cbn [rbind]. destruct (entry_at fs (q ++ [n])).
    - rewrite As, !spell_ext. reflexivity.
    - rewrite Es, !spell_ext. reflexivity. }
  assert (C : candidates d ns n = [q ++ [n ++ $".slang"]; q ++ [n ++ $".os"]; (q ++ [n]) ++ [$"All.slang"]; (q ++ [n]) ++ [$"All.os"]]).
  { unfold candidates, q. rewrite <- !app_assoc. reflexivity. }
  rewrite C. unfold first_there. cbn [List.find]. unfold names_file, names_none. rewrite B. rewrite spell_ext in Es, Eo, As, Ao.
  destruct (is_there fs (q ++ [n ++ $".slang"])) eqn:I1; [auto|]. destruct (is_there fs (q ++ [n ++ $".os"])) eqn:I2; [auto|].
  destruct (entry_at fs (q ++ [n])) eqn:Ee.
  - destruct (is_there fs ((q ++ [n]) ++ [$"All.slang"])) eqn:I3; [auto|].
    destruct (is_there fs ((q ++ [n]) ++ [$"All.os"])) eqn:I4; [auto|]. eexists. split; [reflexivity|]. exact Ao.
  - assert (X : forall x, is_there fs ((q ++ [n]) ++ [x]) = false).
    { intros x. unfold is_there. destruct (entry_at fs ((q ++ [n]) ++ [x])) eqn:Ex; [|reflexivity].
      destruct T as [T1 _]. apply T1 in Ex. congruence. }
    rewrite !X. eexists. split; [reflexivity|]. exact Eo.
Qed.
(** If the first folder of the path is missing, the rest of the path does not matter. *)
Theorem missing_folder d t ns n m r : folder_text d t -> Forall good_name d -> Forall plain (ns ++ n :: m :: r) ->
  entry_at fs (d ++ ns) = Some Dir -> entry_at fs (d ++ ns ++ [n]) = None ->
  build_filename fs cwd t (dots (ns ++ n :: m :: r)) = build_filename fs cwd t (dots (ns ++ [n])).
Proof.
  intros Ht Hd Hn Dn Ne. assert (R : real_path fs cwd t (dots (ns ++ n :: m :: r)) = real_path fs cwd t (dots (ns ++ [n]))).
  { assert (Hn1 : Forall plain (ns ++ [n])).
    { apply Forall_app in Hn as [Hns Hn]. apply Forall_app. split; [exact Hns|]. inversion_clear Hn. constructor; [assumption|constructor]. }
    rewrite (real_path_dots d t ns n) by assumption. unfold real_path, build_path, full_name. fold (undot (dots (ns ++ n :: m :: r))).
    destruct (t ++ $"/" ++ undot (dots (ns ++ n :: m :: r))) eqn:S; [destruct t; discriminate S|]. rewrite <- S.
    assert (Dd : entry_at fs d = Some Dir).
    { destruct ns as [|x ns']; [rewrite app_nil_r in Dn; exact Dn|]. apply (there_prefix d (x :: ns')); [congruence|discriminate]. }
    rewrite (find_in_folder d t _ Ht Hd Dd). rewrite names_dots by (assumption || (destruct ns; discriminate)).
    apply plain_goods in Hn. apply Forall_app in Hn as [Hns Hn]. rewrite (walk_dirs fs ns d _) by assumption.
    inversion_clear Hn. rewrite walk_cons by assumption. rewrite <- app_assoc, Ne. reflexivity. }
  unfold build_filename. rewrite R. reflexivity.
Qed.
End Paths.
