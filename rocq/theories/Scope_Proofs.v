From Verif Require Import Base Base_Proofs Scope_Model Scope_Spec.

Lemma vis_geb_spec a b : reflect (visible a b) (vis_geb a b).
Proof. destruct a, b; cbn; constructor; naive_solver. Qed.
Lemma visible_designtime a : visible a Designtime.
Proof. done. Qed.

Lemma find_decl_Some t n v y : find_decl t n v = Some y <->
  exists d, t !! n = Some d /\ visible (d_vis d) v /\ y = SymDecl d.
Proof.
  unfold find_decl. destruct (t !! n) as [d|]; [|naive_solver].
  destruct (vis_geb_spec (d_vis d) v); naive_solver.
Qed.
Lemma find_decl_None t n v : find_decl t n v = None <->
  forall d, t !! n = Some d -> ~ visible (d_vis d) v.
Proof.
  unfold find_decl. destruct (t !! n) as [d|]; [|naive_solver].
  destruct (vis_geb_spec (d_vis d) v); naive_solver.
Qed.
Lemma find_meth_Some ms n v y : find_meth ms n v = Some y ->
  exists m, m ∈ ms /\ m_name m = n /\ visible (m_vis m) v /\ y = SymMethod m.
Proof.
  induction ms as [|m ms IH]; cbn; [done|].
  destruct (vis_geb_spec (m_vis m) v), (str_eqb_spec (m_name m) n).
  - intros [= <-]. exists m. split_and!; auto. left.
  - intros H. destruct (IH H) as (k&?&?). exists k. split; [by right|done].
  - intros H. destruct (IH H) as (k&?&?). exists k. split; [by right|done].
  - intros H. destruct (IH H) as (k&?&?). exists k. split; [by right|done].
Qed.
Lemma find_meth_None ms n v : find_meth ms n v = None ->
  forall m, m ∈ ms -> m_name m = n -> ~ visible (m_vis m) v.
Proof.
  induction ms as [|m ms IH]; cbn; intros H k Hk Hn; [by apply elem_of_nil in Hk|].
  destruct (vis_geb_spec (m_vis m) v), (str_eqb_spec (m_name m) n); try done;
    apply elem_of_cons in Hk as [->|Hk]; auto; done.
Qed.

Lemma orelse_Some {A} (a b : option A) x : orelse a b = Some x <-> a = Some x \/ (a = None /\ b = Some x).
Proof. destruct a; cbn; naive_solver. Qed.
Lemma orelse_None {A} (a b : option A) : orelse a b = None <-> a = None /\ b = None.
Proof. destruct a; cbn; naive_solver. Qed.

Lemma own_None s n v : own s n v = None <-> forall p y, ~ declares s n v p y.
Proof.
  unfold own. rewrite !orelse_None, !find_decl_None. split.
  - intros (H1&H2&H3) p y Hd. destruct Hd as [d ? ?|d ? ?|m Hk Hm Hn Hv|m Hk Hm Hn Hv]; [by eapply H1|by eapply H2|..].
    + assert (G : orelse (find_meth (smeths s) n v) (find_meth (semeths s) n v) = None) by (by destruct (skind s)).
      apply orelse_None in G as [G _]. by eapply (find_meth_None _ _ _ G m).
    + assert (G : orelse (find_meth (smeths s) n v) (find_meth (semeths s) n v) = None) by (by destruct (skind s)).
      apply orelse_None in G as [_ G]. by eapply (find_meth_None _ _ _ G m).
  - intros H. split; [intros d Hd Hv; eapply H; by eapply D_local|].
    split; [intros d Hd Hv; eapply H; by eapply D_ext|].
    destruct (skind s) eqn:Hk; [done|..].
    all: apply orelse_None; split.
    all: match goal with |- find_meth ?l ?n0 ?v0 = None => destruct (find_meth l n0 v0) as [y|] eqn:E; [|done] end.
    all: apply find_meth_Some in E as (m&Hm&Hn&Hv&->); exfalso; eapply H.
    all: (eapply D_meth; eauto; congruence) || (eapply D_emeth; eauto; congruence).
Qed.

Lemma own_Some s n v y : own s n v = Some y -> best s n v y.
Proof.
  unfold own. rewrite !orelse_Some. intros [H|[H1 [H|[H2 H]]]].
  - apply find_decl_Some in H as (d&?&?&->). exists Local. split; [by constructor|]. intros q z _. destruct q; cbn; lia.
  - apply find_decl_Some in H as (d&?&?&->). exists Imported. split; [by constructor|].
    rewrite find_decl_None in H1. intros q z Hd. destruct Hd; cbn; try lia. exfalso. by eapply H1.
  - rewrite find_decl_None in H1, H2.
    assert (Hk : skind s <> KSym) by (intros E; rewrite E in H; done).
    assert (H' : orelse (find_meth (smeths s) n v) (find_meth (semeths s) n v) = Some y) by (by destruct (skind s)).
    apply orelse_Some in H' as [H'|[H3 H']]; apply find_meth_Some in H' as (m&?&?&?&->).
    + exists LocalMethod. split; [by constructor|]. intros q z Hd. destruct Hd; cbn; try lia; exfalso; [by eapply H1|by eapply H2].
    + exists ImportedMethod. split; [by constructor|]. intros q z Hd.
      destruct Hd as [d ? ?|d ? ?|k ? ? ? ?|k ? ? ? ?]; cbn; try lia; exfalso; [by eapply H1|by eapply H2|].
      by eapply (find_meth_None _ _ _ H3 k).
Qed.

(** ** Plain chains *)
Fixpoint first_own (l : list scope) (n : str) (v : visibility) : option symbol :=
  match l with [] => None | s :: l' => orelse (own s n v) (first_own l' n v) end.

Lemma resolve_plain : forall s n v, plain s -> resolve s n false v = first_own (chain s) n v.
Proof.
  fix IH 1. intros [k sy ex ms em base parent] n v. cbn [plain resolve chain first_own].
  intros (Hk&->&Hp).
  assert (E : match parent with Some p => resolve p n false v | None => None end =
              first_own (match parent with Some p => chain p | None => [] end) n v).
  { destruct parent as [p|]; [|done]. by apply IH. }
  rewrite E. destruct k; [done| |done]. by destruct (is_designtime v).
Qed.

Lemma resolve_plain_only s n v : plain s -> resolve s n true v = own s n v.
Proof.
  destruct s as [k sy ex ms em base parent]. cbn [plain resolve]. intros (Hk&->&_).
  destruct k; [|destruct (is_designtime v)|done]; by destruct (own _ n v).
Qed.

Lemma first_own_Some l n v y : first_own l n v = Some y ->
  exists k s, l !! k = Some s /\ best s n v y /\
    forall j sj, (j < k)%nat -> l !! j = Some sj -> forall p z, ~ declares sj n v p z.
Proof.
  induction l as [|s l IH]; cbn; [done|]. rewrite orelse_Some. intros [H|[H1 H]].
  - exists 0%nat, s. split; [done|]. split; [by apply own_Some|]. intros; lia.
  - destruct (IH H) as (k&s'&?&?&Hj). exists (S k), s'. split; [done|]. split; [done|].
    intros [|j] sj Hlt; cbn; [intros [= <-]; by apply own_None|]. intros Hl. eapply Hj; [|done]. lia.
Qed.
Lemma first_own_None l n v : first_own l n v = None <->
  forall s, s ∈ l -> forall p y, ~ declares s n v p y.
Proof.
  induction l as [|s l IH]; cbn.
  - split; [intros _ s Hs; by apply elem_of_nil in Hs|done].
  - rewrite orelse_None, own_None, IH. split.
    + intros [H1 H2] s' Hs. apply elem_of_cons in Hs as [->|Hs]; auto.
    + intros H. split; [apply H; left|]. intros s' Hs. apply H. by right.
Qed.

(** ** Objects *)
Lemma obj_only : forall s n v, object_chain s -> v <> Designtime ->
  resolve s n true v = first_own (bases s) n v.
Proof.
  fix IH 1. intros [k sy ex ms em base parent] n v. cbn [object_chain resolve bases first_own].
  intros (->&Hp&Hb) Hv.
  assert (is_designtime v = false) as -> by (by destruct v).
  assert (E : match base with Some b => resolve b n true v | None => None end =
              first_own (match base with Some b => bases b | None => [] end) n v).
  { destruct base as [b|]; [|done]. by apply IH. }
  rewrite E. set (F := first_own _ n v). destruct (own _ n v); [done|]. cbn [orelse].
  destruct F; [done|]. cbn. destruct base as [b|]; [|done]. by rewrite andb_false_r.
Qed.

Lemma obj_only_designtime s n : object_chain s ->
  resolve s n true Designtime = own s n Designtime.
Proof.
  destruct s as [k sy ex ms em base parent]. cbn [object_chain resolve]. intros (->&_&_).
  cbn [is_designtime orelse]. destruct (own _ n Designtime); [done|]. cbn [orelse].
  destruct base as [b|]; [|done]. by rewrite andb_false_r.
Qed.

Lemma obj_found : forall s n v y, object_chain s -> v <> Designtime ->
  first_own (bases s) n v = Some y -> resolve s n false v = Some y.
Proof.
  intros s n v y Ho Hv H. rewrite <- (obj_only s n v Ho Hv) in H.
  destruct s as [k sy ex ms em base parent]. cbn [resolve object_chain] in *.
  destruct Ho as (->&_&_).
  assert (Hz : forall r, orelse r (orelse (match base with Some b => if is_obj b && negb true then resolve b n true (at_least_protected v) else None | None => None end) None) = Some y -> r = Some y).
  { intros r. destruct r; [done|]. cbn [orelse]. destruct base as [b|]; [|done]. by rewrite andb_false_r. }
  apply Hz in H. rewrite H. done.
Qed.

Lemma alp_notdt v : at_least_protected v <> Designtime.
Proof. by destruct v. Qed.

Lemma object_chain_obj b : object_chain b -> is_obj b = true.
Proof. destruct b. cbn. by intros (->&_). Qed.

Lemma obj_designtime s n : object_chain s ->
  (forall y, own s n Designtime = Some y -> resolve s n false Designtime = Some y) /\
  (forall b y, own s n Designtime = None -> sbase s = Some b ->
     first_own (bases b) n Protected = Some y -> resolve s n false Designtime = Some y).
Proof.
  intros Ho. pose proof (obj_only_designtime s n Ho) as E.
  destruct s as [k sy ex ms em base parent]. cbn [object_chain sbase] in *. destruct Ho as (->&Hp&Hb).
  cbn [resolve is_designtime orelse]. split.
  - intros y ->. done.
  - intros b y -> -> HF. cbn [orelse]. rewrite (object_chain_obj b Hb). cbn [andb negb at_least_protected].
    by rewrite (obj_found b n Protected y Hb ltac:(done) HF).
Qed.

(** Nothing in the inheritance chain: an outer declaration or nothing. *)
Lemma obj_outer : forall s n v y, object_chain s -> v <> Designtime ->
  first_own (bases s) n v = None -> resolve s n false v = Some y ->
  exists b p w, b ∈ bases s /\ sparent b = Some p /\ (w = v \/ w = Protected) /\ resolve p n false w = Some y.
Proof.
  fix IH 1. intros [k sy ex ms em base parent] n v y Ho Hv HN.
  cbn [object_chain] in Ho. destruct Ho as (->&Hp&Hb).
  cbn [bases first_own] in HN. apply orelse_None in HN as [HN1 HN2].
  cbn [resolve]. rewrite HN1. cbn [orelse].
  assert (E : (if is_designtime v then None else match base with Some b => resolve b n true v | None => None end) = None).
  { destruct (is_designtime v); [done|]. destruct base as [b|]; [|done]. by rewrite obj_only. }
  rewrite E. cbn [orelse]. rewrite orelse_Some. intros [H|[_ H]].
  - destruct base as [b|]; [|done]. rewrite (object_chain_obj b Hb) in H. cbn [andb negb] in H.
    assert (HNb : first_own (bases b) n (at_least_protected v) = None).
    { apply first_own_None. intros s Hs p z Hd. rewrite first_own_None in HN2.
      apply (HN2 s Hs p z).
      assert (Hw : forall w, visible w (at_least_protected v) -> visible w v).
      { intros w. unfold visible. destruct v, w; cbn; naive_solver. }
      destruct Hd; constructor; auto. }
    destruct (IH b n (at_least_protected v) y Hb (alp_notdt v) HNb H) as (b'&p&w&Hb'&Hp'&Hw&Hr).
    exists b', p, w. split; [cbn; by right|]. split; [done|]. split; [|done].
    destruct Hw as [->| ->]; [|by right]. destruct v; cbn; auto.
  - destruct parent as [p|]; [|done]. eexists _, p, v. split; [cbn; left|]. split; [done|]. split; [by left|done].
Qed.

(** ** define / undefine *)
Lemma define_frame s n d s' : define s n d = Ok s' ->
  skind s' = skind s /\ sexts s' = sexts s /\ smeths s' = smeths s /\ semeths s' = semeths s /\
  sbase s' = sbase s /\ sparent s' = sparent s /\ ssyms s !! n = None /\ ssyms s' = <[n := d]> (ssyms s).
Proof.
  destruct s as [k sy ex ms em base parent]. unfold define. intros H.
  assert (Hn : sy !! n = None).
  { destruct (sy !! n) as [d0|] eqn:E; [|done]. exfalso. destruct k.
    - assert (is_Some (resolve (Scope KSym sy ex ms em base parent) n true Designtime)) as Hs.
      { cbn [resolve]. unfold own. cbn [ssyms sexts skind]. unfold find_decl. rewrite E.
        destruct (vis_geb_spec (d_vis d0) Designtime) as [|Hf]; [by eexists|].
        destruct Hf. apply visible_designtime. }
      rewrite bool_decide_true in H by done. done.
    - rewrite bool_decide_true in H by done. done.
    - rewrite bool_decide_true in H by done. done. }
  unfold map_insert in H. rewrite Hn in H.
  destruct k; (destruct (bool_decide _); [done|]); injection H as <-; cbn; split_and!; done.
Qed.

Lemma own_other s s' n n' v d : skind s' = skind s -> sexts s' = sexts s -> smeths s' = smeths s ->
  semeths s' = semeths s -> ssyms s' = <[n := d]> (ssyms s) -> n' <> n -> own s' n' v = own s n' v.
Proof.
  intros H1 H2 H3 H4 H5 Hne. unfold own, find_decl. rewrite H1, H2, H3, H4, H5.
  by rewrite lookup_insert_ne.
Qed.

Lemma resolve_ext s s' n only v : skind s' = skind s -> sbase s' = sbase s -> sparent s' = sparent s ->
  own s' n v = own s n v -> resolve s' n only v = resolve s n only v.
Proof.
  destruct s as [k sy ex ms em base parent], s' as [k' sy' ex' ms' em' base' parent'].
  cbn [skind sbase sparent]. intros -> -> -> Ho. cbn [resolve]. rewrite Ho. done.
Qed.

Lemma define_other s n d s' n' only v : define s n d = Ok s' -> n' <> n ->
  resolve s' n' only v = resolve s n' only v.
Proof.
  intros H Hne. destruct (define_frame s n d s' H) as (?&?&?&?&?&?&?&?).
  apply resolve_ext; auto. by eapply own_other.
Qed.

Lemma define_found s n d s' only v : define s n d = Ok s' -> visible (d_vis d) v ->
  resolve s' n only v = Some (SymDecl d).
Proof.
  intros H Hv. destruct (define_frame s n d s' H) as (?&?&?&?&?&?&?&Hs).
  assert (Ho : own s' n v = Some (SymDecl d)).
  { unfold own, find_decl. rewrite Hs, lookup_insert. by destruct (vis_geb_spec (d_vis d) v). }
  destruct s' as [k sy ex ms em base parent]. cbn [resolve]. rewrite Ho. by destruct k.
Qed.

Lemma define_undefine s n d s' : define s n d = Ok s' -> undefine s' n = s.
Proof.
  intros H. destruct (define_frame s n d s' H) as (?&?&?&?&?&?&Hn&Hs).
  destruct s, s'. cbn in *. subst. by rewrite delete_insert.
Qed.

Lemma define_fails s n d : skind s = KSym ->
  (define s n d = Throw "DuplicateIdentifier" <-> is_Some (ssyms s !! n) \/ is_Some (sexts s !! n)).
Proof.
  destruct s as [k sy ex ms em base parent]. cbn [skind ssyms sexts]. intros ->. unfold define.
  assert (E : is_Some (resolve (Scope KSym sy ex ms em base parent) n true Designtime) <->
              is_Some (sy !! n) \/ is_Some (ex !! n)).
  { cbn [resolve]. unfold own, find_decl. cbn [ssyms sexts skind].
    destruct (sy !! n) as [a|].
    - destruct (vis_geb_spec (d_vis a) Designtime) as [|Hf]; [|destruct Hf; apply visible_designtime].
      cbn. split; [left; by eexists|by eexists].
    - destruct (ex !! n) as [b|].
      + destruct (vis_geb_spec (d_vis b) Designtime) as [|Hf]; [|destruct Hf; apply visible_designtime].
        cbn. split; [right; by eexists|by eexists].
      + cbn. split; [by intros [? ?]|by intros [[? ?]|[? ?]]]. }
  destruct (bool_decide_reflect (is_Some (resolve (Scope KSym sy ex ms em base parent) n true Designtime))) as [Hd|Hd].
  - split; [intros _; by apply E|done].
  - split; [done|]. intros Hx. destruct Hd. by apply E.
Qed.

Lemma define_fails_met s n d : skind s <> KSym ->
  (define s n d = Throw "DuplicateIdentifier" <-> is_Some (ssyms s !! n)).
Proof.
  destruct s as [k sy ex ms em base parent]. cbn [skind ssyms]. intros Hk. unfold define.
  destruct (bool_decide_reflect (is_Some (sy !! n))); destruct k; done.
Qed.

(** ** Histories of one scope, per name *)
Lemma sstep_name s o n : let s' := sstep s o in
  skind s' = skind s /\ sbase s' = sbase s /\ sparent s' = sparent s /\ smeths s' = smeths s /\ semeths s' = semeths s /\
  (ssyms s' !! n, sexts s' !! n) = name_step (skind s) n (ssyms s !! n, sexts s !! n) o.
Proof.
  destruct o as [n' d|n' d|n']; cbn [sstep name_step].
  - destruct (define s n' d) as [s'|e| |] eqn:E.
    + destruct (define_frame s n' d s' E) as (Hk&He&Hm&Hem&Hb&Hp&Hn&Hs). split_and!; [done..|].
      rewrite Hs, He. destruct (str_eqb_spec n' n) as [->|Hne].
      * rewrite lookup_insert, Hn. destruct (skind s) eqn:K; [|by destruct (sexts s !! n)..].
        destruct (sexts s !! n) as [x|] eqn:Ex; [|done]. exfalso.
        assert (define s n d = Throw "DuplicateIdentifier") as F by (apply define_fails; [done|right; by eexists]).
        congruence.
      * by rewrite lookup_insert_ne.
    + cbn zeta. split_and!; [done..|]. destruct (str_eqb_spec n' n) as [->|]; [|done].
      assert (Hf : define s n d = Throw "DuplicateIdentifier").
      { revert E. destruct s as [k sy ex ms em base parent]. unfold define. destruct k; by destruct (bool_decide _). }
      destruct (skind s) eqn:K.
      * apply define_fails in Hf; [|done]. destruct Hf as [[x ->]|[x ->]]; [done|]. by destruct (ssyms s !! n).
      * apply define_fails_met in Hf; [|by rewrite K]. destruct Hf as [x ->]. done.
      * apply define_fails_met in Hf; [|by rewrite K]. destruct Hf as [x ->]. done.
    + exfalso. revert E. destruct s as [k sy ex ms em base parent]. unfold define. destruct k; by destruct (bool_decide _).
    + exfalso. revert E. destruct s as [k sy ex ms em base parent]. unfold define. destruct k; by destruct (bool_decide _).
  - destruct s as [k sy ex ms em base parent]. unfold define_external, map_insert.
    destruct (bool_decide_reflect (is_Some (ex !! n'))) as [[x Hx]|Hx]; cbn; split_and!; try done.
    + destruct (str_eqb_spec n' n) as [->|]; [|done]. by rewrite Hx.
    + apply eq_None_not_Some in Hx. rewrite Hx. destruct (str_eqb_spec n' n) as [->|].
      * by rewrite lookup_insert, Hx.
      * by rewrite lookup_insert_ne.
  - destruct s as [k sy ex ms em base parent]. cbn. split_and!; try done.
    destruct (str_eqb_spec n' n) as [->|]; [by rewrite lookup_delete|by rewrite lookup_delete_ne].
Qed.

Lemma srun_name os : forall s n, let s' := srun s os in
  skind s' = skind s /\ sbase s' = sbase s /\ sparent s' = sparent s /\ smeths s' = smeths s /\ semeths s' = semeths s /\
  (ssyms s' !! n, sexts s' !! n) = fold_left (name_step (skind s) n) os (ssyms s !! n, sexts s !! n).
Proof.
  induction os as [|o os IH]; intros s n; [cbn; done|].
  cbn [srun fold_left]. destruct (sstep_name s o n) as (H1&H2&H3&H4&H5&H6). cbn zeta in *.
  destruct (IH (sstep s o) n) as (G1&G2&G3&G4&G5&G6). fold (srun (sstep s o) os).
  rewrite <- H6. rewrite <- H1. split_and!; congruence.
Qed.

(** ** Signatures *)
Lemma sig_match_nil sig : sig_match sig [] = true <-> Forall (fun p => p_default p = true) sig.
Proof.
  induction sig as [|p sig IH]; cbn; [split; [constructor|done]|].
  destruct (p_default p) eqn:E; [|split; [done|inversion 1; congruence]].
  rewrite IH. split; [by constructor|by inversion 1].
Qed.

Lemma sig_match_spec sig : forall types, (length types <= length sig)%nat ->
  (sig_match sig types = true <-> accepts_types sig types).
Proof.
  unfold accepts_types. induction sig as [|p sig IH]; intros [|t types] Hl; cbn in Hl; [| lia | |].
  - cbn. split; [|done]. intros _. split; [lia|]. split; [intros i p t Hp|intros i p Hp]; by rewrite lookup_nil in Hp.
  - rewrite sig_match_nil. split.
    + intros H. split; [cbn; lia|]. split; [by intros i q t _; rewrite lookup_nil|].
      intros i q Hq _. by eapply (Forall_lookup_1 (fun p => p_default p = true)).
    + intros (_&_&H). apply Forall_lookup_2. intros i q Hq. by eapply H.
  - cbn [sig_match]. destruct (str_eqb_spec (p_type p) t) as [Ht|Ht]; cbn [negb andb];
      [|destruct (str_eqb_spec (p_type p) []) as [He|He]; cbn [negb]].
    + rewrite IH by lia. split; intros (H1&H2&H3); (split; [cbn in *; lia|]); split.
      * intros [|i] q t'; cbn; [intros [= <-] [= <-]; by left|apply H2].
      * intros [|i] q; cbn; [done|apply H3].
      * intros i q t'. apply (H2 (S i)).
      * intros i q. apply (H3 (S i)).
    + rewrite IH by lia. split; intros (H1&H2&H3); (split; [cbn in *; lia|]); split.
      * intros [|i] q t'; cbn; [intros [= <-] [= <-]; by right|apply H2].
      * intros [|i] q; cbn; [done|apply H3].
      * intros i q t'. apply (H2 (S i)).
      * intros i q. apply (H3 (S i)).
    + split; [done|]. intros (_&H2&_). exfalso. destruct (H2 0%nat p t eq_refl eq_refl); congruence.
Qed.

Lemma signature_valid_spec m ps :
  is_signature_valid m ps = true <-> accepts_types (m_sig m) (map p_type ps).
Proof.
  unfold is_signature_valid. destruct (Nat.ltb_spec (length (m_sig m)) (length ps)) as [Hl|Hl].
  - split; [done|]. intros (H&_). rewrite map_length in H. lia.
  - apply sig_match_spec. by rewrite map_length.
Qed.

Lemma self_accepts m : is_signature_valid m (m_sig m) = true.
Proof.
  apply signature_valid_spec. split; [by rewrite map_length|]. split.
  - intros i p t Hp. rewrite list_lookup_fmap, Hp. cbn. intros [= <-]. by left.
  - intros i p Hp. rewrite list_lookup_fmap, Hp. done.
Qed.

Lemma merge_triples sig : forall args ref, (length args <= length sig)%nat ->
  map (fun p => (p_name p, p_type p, p_value p)) (merge_loop sig args ref) = completed sig args.
Proof.
  unfold completed. induction sig as [|s sig IH]; intros args ref Hl; cbn [merge_loop].
  - destruct args; [done|cbn in Hl; lia].
  - destruct args as [|a args]; cbn [map length zip_with drop app].
    + f_equal. specialize (IH [] ref). cbn [length zip_with drop] in IH. rewrite IH by lia.
      rewrite drop_0. by destruct sig.
    + f_equal. apply IH. cbn in Hl. lia.
Qed.

Lemma merge_length sig : forall args ref, length (merge_loop sig args ref) = length sig.
Proof. induction sig as [|s sig IH]; intros [|a args] ref; cbn; auto. Qed.

(** The reference every parameter gets. *)
Lemma merge_refs sig : forall args ref, (length args <= length sig)%nat ->
  map p_ref (merge_loop sig args ref) =
  map p_ref args ++ replicate (length sig - length args) (default ref (last (map p_ref args))).
Proof.
  induction sig as [|s sig IH]; intros args ref Hl; cbn [merge_loop].
  - destruct args; [done|cbn in Hl; lia].
  - destruct args as [|a args]; cbn [map length].
    + cbn [app]. replace (S (length sig) - 0)%nat with (S (length sig)) by lia. cbn [replicate]. f_equal.
      specialize (IH [] ref). cbn in IH. rewrite IH by lia. by rewrite Nat.sub_0_r.
    + cbn [app]. f_equal. rewrite IH by (cbn in Hl; lia). f_equal.
      f_equal. rewrite last_cons. by destruct (last (map p_ref args)).
Qed.

(** ** Overload tables *)
Lemma find_overload_Some ms n ps v m : find_overload ms n ps v = Some m ->
  m ∈ ms /\ visible (m_vis m) v /\ m_name m = n /\ is_signature_valid m ps = true.
Proof.
  induction ms as [|x ms IH]; cbn; [done|].
  destruct (vis_geb_spec (m_vis x) v), (str_eqb_spec (m_name x) n), (is_signature_valid x ps) eqn:E; cbn;
    try (intros H; destruct (IH H) as (?&?&?&?); split_and!; [by right|done..]).
  intros [= <-]. split_and!; [left|done..].
Qed.
Lemma find_overload_None ms n ps v : find_overload ms n ps v = None ->
  forall m, m ∈ ms -> visible (m_vis m) v -> m_name m = n -> is_signature_valid m ps = true -> False.
Proof.
  induction ms as [|x ms IH]; cbn; intros H m Hm Hv Hn Hs; [by apply elem_of_nil in Hm|].
  destruct (vis_geb_spec (m_vis x) v), (str_eqb_spec (m_name x) n), (is_signature_valid x ps) eqn:E; cbn in H; try done;
    apply elem_of_cons in Hm as [->|Hm]; eauto; congruence.
Qed.

Lemma ptr_insert_in ms m x : x ∈ ptr_insert ms m -> x = m \/ x ∈ ms.
Proof.
  induction ms as [|y ms IH]; cbn; [rewrite elem_of_list_singleton; auto|].
  destruct (m_ptr m <? m_ptr y)%N; [rewrite elem_of_cons; tauto|].
  destruct (m_ptr y <? m_ptr m)%N; rewrite !elem_of_cons; tauto.
Qed.
Lemma ptr_insert_keeps ms m x : x ∈ ms -> x ∈ ptr_insert ms m.
Proof.
  induction ms as [|y ms IH]; cbn; [by intros ?%elem_of_nil|].
  destruct (m_ptr m <? m_ptr y)%N; [rewrite !elem_of_cons; tauto|].
  destruct (m_ptr y <? m_ptr m)%N; rewrite !elem_of_cons; tauto.
Qed.
Lemma ptr_insert_new ms m : m_ptr m ∉ map m_ptr ms -> m ∈ ptr_insert ms m.
Proof.
  induction ms as [|y ms IH]; cbn; [rewrite elem_of_list_singleton; auto|].
  rewrite elem_of_cons. intros Hn.
  destruct (N.ltb_spec (m_ptr m) (m_ptr y)); [left|].
  destruct (N.ltb_spec (m_ptr y) (m_ptr m)); [right; apply IH; tauto|]. destruct Hn. left. lia.
Qed.

Lemma define_method_frame s m s' : define_method s m = Ok s' ->
  skind s' = skind s /\ semeths s' = semeths s /\ ssyms s' = ssyms s /\ sexts s' = sexts s /\
  sbase s' = sbase s /\ sparent s' = sparent s /\ smeths s' = ptr_insert (smeths s) m /\
  (forall x, x ∈ smeths s \/ x ∈ semeths s -> m_name x = m_name m -> is_signature_valid x (m_sig m) = false).
Proof.
  destruct s as [k sy ex ms em base parent]. unfold define_method. intros H.
  destruct (orelse _ _) eqn:E; [done|]. injection H as <-. cbn. split_and!; try done.
  apply orelse_None in E as [E1 E2]. intros x Hx Hn. destruct (is_signature_valid x (m_sig m)) eqn:Es; [|done].
  exfalso. destruct Hx as [Hx|Hx];
    [eapply (find_overload_None _ _ _ _ E1 x)|eapply (find_overload_None _ _ _ _ E2 x)]; auto using visible_designtime.
Qed.

Lemma find_overload_unique ms n ps v m : m ∈ ms -> visible (m_vis m) v -> m_name m = n ->
  is_signature_valid m ps = true ->
  (forall x, x ∈ ms -> m_name x = n -> is_signature_valid x ps = true -> x = m) ->
  find_overload ms n ps v = Some m.
Proof.
  intros Hm Hv Hn Hs Hu. destruct (find_overload ms n ps v) as [x|] eqn:E.
  - apply find_overload_Some in E as (?&?&?&?). f_equal. by apply Hu.
  - exfalso. eapply find_overload_None; eauto.
Qed.

Lemma define_method_call s m s' v only : skind s = KMet -> define_method s m = Ok s' ->
  m_ptr m ∉ map m_ptr (smeths s) -> visible (m_vis m) v ->
  resolve_method s' (m_name m) (m_sig m) only v = Some m.
Proof.
  intros Hk H Hptr Hv. destruct (define_method_frame s m s' H) as (Hk'&_&_&_&_&_&Hms&Hno).
  assert (E : find_overload (smeths s') (m_name m) (m_sig m) v = Some m).
  { rewrite Hms. apply find_overload_unique; auto using self_accepts.
    - by apply ptr_insert_new.
    - intros x Hx Hn Hs. apply ptr_insert_in in Hx as [->|Hx]; [done|]. rewrite Hno in Hs by auto. done. }
  destruct s' as [k sy ex ms em base parent]. cbn [skind smeths] in *. rewrite Hk in Hk'. subst k.
  cbn [resolve_method]. by rewrite E.
Qed.

Lemma strict_accepts m ps : strict_method m ->
  is_signature_valid m ps = true -> map p_type ps = map p_type (m_sig m).
Proof.
  intros Hst. rewrite signature_valid_spec. intros (Hl&H2&H3). unfold strict_method in Hst.
  apply list_eq. intros i. rewrite (list_lookup_fmap p_type (m_sig m)). destruct (m_sig m !! i) as [p|] eqn:Hp; cbn.
  - assert (p_type p <> [] /\ p_default p = false) as [Ht Hd] by (by eapply (Forall_lookup_1 _ _ _ _ Hst)).
    destruct (map p_type ps !! i) as [t|] eqn:Hi.
    + destruct (H2 i p t Hp Hi); congruence.
    + specialize (H3 i p Hp Hi). congruence.
  - apply lookup_ge_None. apply lookup_ge_None in Hp. lia.
Qed.

Lemma sig_valid_types m ps qs : map p_type ps = map p_type qs ->
  is_signature_valid m ps = is_signature_valid m qs.
Proof.
  intros H. unfold is_signature_valid. rewrite H.
  assert (length ps = length qs) as -> by (by rewrite <- (map_length p_type ps), H, map_length). done.
Qed.

Lemma mrun_defs_unique l : forall s, Forall strict_method l -> Forall strict_method (smeths s) ->
  (forall a b ps, a ∈ smeths s -> b ∈ smeths s -> m_name a = m_name b ->
     is_signature_valid a ps = true -> is_signature_valid b ps = true -> a = b) ->
  let s' := mrun_defs s l in
  Forall strict_method (smeths s') /\
  (forall a b ps, a ∈ smeths s' -> b ∈ smeths s' -> m_name a = m_name b ->
     is_signature_valid a ps = true -> is_signature_valid b ps = true -> a = b).
Proof.
  induction l as [|m l IH]; intros s Hl Hs Hu; [by split|].
  inversion Hl as [|? ? Hm Hl']; subst. cbn [mrun_defs fold_left].
  apply IH; [done|..].
  - destruct (define_method s m) as [s1| | |] eqn:E; try done.
    destruct (define_method_frame s m s1 E) as (_&_&_&_&_&_&Hms&_). rewrite Hms.
    apply Forall_forall. intros x Hx. apply ptr_insert_in in Hx as [->|Hx]; [done|].
    rewrite Forall_forall in Hs. auto.
  - destruct (define_method s m) as [s1| | |] eqn:E; try done.
    destruct (define_method_frame s m s1 E) as (_&_&_&_&_&_&Hms&Hno). rewrite Hms.
    rewrite Forall_forall in Hs.
    assert (Hx : forall x ps, x ∈ smeths s -> m_name x = m_name m -> is_signature_valid x ps = true ->
       is_signature_valid m ps = true -> False).
    { intros x ps Hx Hn H1 H2. apply strict_accepts in H2; [|done].
      rewrite (sig_valid_types x ps (m_sig m) H2) in H1. rewrite Hno in H1 by auto. done. }
    intros a b ps Ha Hb Hn Hva Hvb. apply ptr_insert_in in Ha as [->|Ha], Hb as [->|Hb]; [done|..|].
    + exfalso. by eapply (Hx b ps).
    + exfalso. by eapply (Hx a ps).
    + by eapply Hu.
Qed.

(** ** Order on methods *)
Lemma types_less_None a : forall b, length a = length b -> types_less a b = None <-> a = b.
Proof.
  induction a as [|x a IH]; intros [|y b]; cbn; try done. intros [= Hl].
  destruct (str_eqb_spec x y) as [->|Hne].
  - rewrite IH by done. split; congruence.
  - split; [done|congruence].
Qed.

Lemma types_less_irrefl a : types_less a a = None.
Proof. by apply types_less_None. Qed.

Lemma types_less_trans a : forall b c, types_less a b = Some true -> types_less b c = Some true -> types_less a c = Some true.
Proof.
  induction a as [|x a IH]; intros [|y b] [|z c]; cbn; try done.
  destruct (str_eqb_spec x y) as [->|Hxy].
  - destruct (str_eqb_spec y z) as [->|Hyz]; [apply IH|done].
  - destruct (str_eqb_spec y z) as [->|Hyz]; [destruct (str_eqb_spec x z); [congruence|done]|].
    intros [= H1] [= H2]. pose proof (str_ltb_trans _ _ _ H1 H2) as H3.
    destruct (str_eqb_spec x z) as [->|]; [|by rewrite H3]. by rewrite (str_ltb_asym _ _ H1) in H2.
Qed.

Lemma types_less_total a : forall b, length a = length b -> types_less a b <> Some true ->
  types_less b a <> Some true -> a = b.
Proof.
  induction a as [|x a IH]; intros [|y b]; cbn; try done. intros [= Hl].
  destruct (str_eqb_spec x y) as [->|Hne].
  - rewrite str_eqb_refl. intros H1 H2. f_equal. by apply IH.
  - destruct (str_eqb_spec y x); [congruence|]. intros H1 H2. exfalso. apply Hne.
    apply str_ltb_total; [destruct (str_ltb x y)|destruct (str_ltb y x)]; congruence.
Qed.

Lemma method_less_irrefl a : method_less a a = false.
Proof.
  unfold method_less. rewrite str_eqb_refl. cbn zeta. rewrite Nat.eqb_refl.
  by rewrite types_less_irrefl, Nat.ltb_irrefl.
Qed.

Lemma method_less_spec a b : method_less a b = true <->
  str_ltb (m_name a) (m_name b) = true \/
  (m_name a = m_name b /\
    ((length (m_sig a) < length (m_sig b))%nat \/
     (length (m_sig a) = length (m_sig b) /\ types_less (map p_type (m_sig a)) (map p_type (m_sig b)) = Some true))).
Proof.
  unfold method_less. destruct (str_eqb_spec (m_name a) (m_name b)) as [E|E]; cbn zeta.
  - rewrite !map_length. rewrite E, str_ltb_irrefl.
    destruct (Nat.eqb_spec (length (m_sig a)) (length (m_sig b))) as [El|El].
    + destruct (types_less _ _) as [r|] eqn:T.
      * split; [intros ->; auto|]. intros [?|[_ [?|[_ [= ->]]]]]; [done|lia|done].
      * destruct (Nat.ltb_spec (length (m_sig a)) (length (m_sig b))); split; try lia; try done.
        intros [?|[_ [?|[_ ?]]]]; [done|lia|done].
    + destruct (Nat.ltb_spec (length (m_sig a)) (length (m_sig b))); split; try done; auto.
      intros [?|[_ [?|[? _]]]]; [done|lia|done].
  - split; [auto|]. intros [?|[? _]]; [done|congruence].
Qed.

Lemma method_less_trans a b c : method_less a b = true -> method_less b c = true -> method_less a c = true.
Proof.
  rewrite !method_less_spec. intros [H1|[E1 H1]] [H2|[E2 H2]].
  - left. by eapply str_ltb_trans.
  - left. by rewrite <- E2.
  - left. by rewrite E1.
  - right. split; [congruence|]. destruct H1 as [H1|[L1 T1]], H2 as [H2|[L2 T2]]; try (left; lia).
    right. split; [lia|]. by eapply types_less_trans.
Qed.

Lemma method_less_incomparable a b :
  (method_less a b = false /\ method_less b a = false) <-> same_signature a b.
Proof.
  unfold same_signature. split.
  - intros [H1 H2].
    assert (N1 : method_less a b <> true) by congruence. assert (N2 : method_less b a <> true) by congruence.
    rewrite method_less_spec in N1, N2.
    assert (E : m_name a = m_name b).
    { apply str_ltb_total; [destruct (str_ltb (m_name a) (m_name b))|destruct (str_ltb (m_name b) (m_name a))]; tauto. }
    split; [done|].
    assert (L : length (m_sig a) = length (m_sig b)).
    { destruct (Nat.lt_trichotomy (length (m_sig a)) (length (m_sig b))) as [?|[?|?]]; [|done|]; exfalso; [apply N1|apply N2]; auto. }
    apply types_less_total; [by rewrite !map_length|intros T; apply N1; auto|intros T; apply N2; auto].
  - intros [E T]. assert (L : length (m_sig a) = length (m_sig b)).
    { by rewrite <- (map_length p_type (m_sig a)), T, map_length. }
    unfold method_less. rewrite E, str_eqb_refl. cbn zeta. rewrite T, Nat.eqb_refl, types_less_irrefl, Nat.ltb_irrefl.
    done.
Qed.

(** ** Inherited methods *)
Fixpoint first_overload (l : list scope) (n : str) (ps : list param) (v : visibility) : option method :=
  match l with
  | [] => None
  | s :: l' => orelse (orelse (find_overload (smeths s) n ps v) (find_overload (semeths s) n ps v))
                      (first_overload l' n ps v)
  end.

Lemma first_overload_None l n ps v : first_overload l n ps v = None <->
  forall s, s ∈ l -> forall m, ~ offers s n ps v m.
Proof.
  induction l as [|s l IH]; cbn.
  - split; [intros _ s Hs; by apply elem_of_nil in Hs|done].
  - rewrite orelse_None, IH, orelse_None. split.
    + intros [[H1 H2] H3] s' Hs m. apply elem_of_cons in Hs as [->|Hs]; [|by apply H3].
      intros ([Hm|Hm]&Hn&Hv&Ha); apply signature_valid_spec in Ha;
        [eapply (find_overload_None _ _ _ _ H1)|eapply (find_overload_None _ _ _ _ H2)]; eauto.
    + intros H. split; [|intros s' Hs; apply H; by right]. split.
      * destruct (find_overload (smeths s) n ps v) as [m|] eqn:E; [|done].
        apply find_overload_Some in E as (?&?&?&?). exfalso. eapply (H s ltac:(left) m).
        split_and!; auto. by apply signature_valid_spec.
      * destruct (find_overload (semeths s) n ps v) as [m|] eqn:E; [|done].
        apply find_overload_Some in E as (?&?&?&?). exfalso. eapply (H s ltac:(left) m).
        split_and!; auto. by apply signature_valid_spec.
Qed.

Lemma first_overload_Some l n ps v m : first_overload l n ps v = Some m ->
  exists k s, l !! k = Some s /\ offers s n ps v m /\
    forall j sj, (j < k)%nat -> l !! j = Some sj -> forall x, ~ offers sj n ps v x.
Proof.
  induction l as [|s l IH]; cbn [first_overload]; [done|]. rewrite orelse_Some. intros [H|[H1 H]].
  - exists 0%nat, s. split; [done|]. split; [|intros; lia].
    apply orelse_Some in H as [H|[_ H]]; apply find_overload_Some in H as (?&?&?&?);
      (split_and!; auto; by apply signature_valid_spec).
  - destruct (IH H) as (k&s'&?&?&Hj). exists (S k), s'. split; [done|]. split; [done|].
    intros [|j] sj Hlt; cbn; [|intros Hl; eapply Hj; [|done]; lia].
    intros [= <-] x Hx. assert (E : first_overload [s] n ps v = None) by (cbn; by rewrite H1).
    rewrite first_overload_None in E. by apply (E s ltac:(left) x).
Qed.

Definition nofinal (l : list scope) : Prop :=
  forall s m, s ∈ l -> m ∈ smeths s \/ m ∈ semeths s -> m_final m = false.

Lemma first_overload_nofinal l n ps v m : nofinal l -> first_overload l n ps v = Some m -> m_final m = false.
Proof.
  intros H E. apply first_overload_Some in E as (k&s&Hk&(Hm&_)&_).
  eapply H; [by eapply elem_of_list_lookup_2|done].
Qed.

Lemma first_overload_alp l n ps v : first_overload l n ps v = None ->
  first_overload l n ps (at_least_protected v) = None.
Proof.
  rewrite !first_overload_None. intros H s Hs m (Hm&Hn&Hv&Ha). apply (H s Hs m). split_and!; auto.
  unfold visible in *. destruct v, (m_vis m); cbn in *; naive_solver.
Qed.

Lemma objm_only : forall s n ps v, object_chain s -> nofinal (bases s) -> v <> Designtime ->
  resolve_method s n ps true v = first_overload (bases s) n ps v.
Proof.
  fix IH 1. intros [k sy ex ms em base parent] n ps v Ho Hf Hv.
  assert (Hfm' : forall l m, nofinal l -> first_overload l n ps v = Some m -> m_final m = false) by (intros; by eapply first_overload_nofinal).
  cbn [object_chain] in Ho. destruct Ho as (->&Hp&Hb). 
  assert (E : forall w, w <> Designtime -> match base with Some b => resolve_method b n ps true w | None => None end =
              first_overload (match base with Some b => bases b | None => [] end) n ps w).
  { intros w Hw. destruct base as [b|]; [|done]. apply IH; try done. intros s m Hs. apply Hf. cbn. by right. }
  cbn [resolve_method]. assert (is_designtime v = false) as -> by (by destruct v).
  rewrite E by done.
  set (b0 := bases (Scope KObj sy ex ms em base parent)) in *.
  assert (Hb0 : first_overload b0 n ps v =
     orelse (orelse (find_overload ms n ps v) (find_overload em n ps v))
       (orelse (first_overload (match base with Some b => bases b | None => [] end) n ps v) None)).
  { subst b0. cbn [bases first_overload smeths semeths].
    destruct (orelse (find_overload ms n ps v) (find_overload em n ps v)); [done|].
    cbn [orelse]. by destruct (first_overload _ n ps v). }
  rewrite <- Hb0. destruct (first_overload b0 n ps v) as [m|] eqn:EF.
  - assert (m_final m = false) as Hmf by (by apply (Hfm' b0 m Hf)).
    destruct base as [b|]; [|by rewrite Hmf].
    rewrite (object_chain_obj b Hb). specialize (E (at_least_protected v) (alp_notdt v)). rewrite E.
    destruct (first_overload (bases b) n ps (at_least_protected v)) as [t|] eqn:ET; [|by rewrite Hmf].
    assert (m_final t = false) as ->; [|by rewrite Hmf].
    eapply first_overload_nofinal; [|exact ET]. intros s x Hs. apply Hf. subst b0. cbn. by right.
  - destruct base as [b|]; [|done].
    rewrite (object_chain_obj b Hb). specialize (E (at_least_protected v) (alp_notdt v)). rewrite E.
    rewrite first_overload_alp; [done|].
    subst b0. cbn [bases first_overload] in EF. by apply orelse_None in EF as [_ ?].
Qed.

