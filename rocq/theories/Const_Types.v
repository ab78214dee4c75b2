(** Accepted programs keep the declared types of variables and members. *)
From Verif Require Import Base Base_Proofs Const_Model Const_Spec Const_Proofs Const_Locals.
Open Scope Z_scope.

(** Objects stay, and keep their class. *)
Definition grow (h h' : heap) : Prop := forall o x, h !! o = Some x -> exists x', h' !! o = Some x' /\ o_ty x' = o_ty x.
Lemma grow_refl h : grow h h.
Proof. intros o x H. by exists x. Qed.
Lemma grow_trans a b c : grow a b -> grow b c -> grow a c.
Proof. intros H1 H2 o x H. destruct (H1 o x H) as (y & Hy & <-). exact (H2 o y Hy). Qed.
Lemma holds_grow h h' d t : grow h h' -> holds h d t -> holds h' d t.
Proof.
  intros H. destruct t as [|c]; cbn [holds]; [done|]. intros Hd o Ho. destruct (Hd o Ho) as (x & Hx & <-). exact (H o x Hx).
Qed.
Lemma holds_blank h t : holds h blank t.
Proof. destruct t; [done|]. intros o [=]. Qed.
Lemma holds_fresh h t : holds h (fresh t) t.
Proof. destruct t; [done|]. intros o [=]. Qed.

Lemma env_grow h h' G E : grow h h' -> env_ok h G E -> env_ok h' G E.
Proof.
  intros H O. unfold env_ok in *. eapply Forall2_impl; [exact O|]. intros s t O'. eapply Forall2_impl; [exact O'|].
  intros q x [? ?]. split; [done|]. by eapply holds_grow.
Qed.
Lemma scope_assoc h s t n e : Forall2 (fun q x => fst q = fst x /\ holds h (snd x) (e_ty (snd q))) s t ->
  assoc n s = Some e -> exists d, assoc n t = Some d /\ holds h d (e_ty e).
Proof.
  induction 1 as [|[x q] [y v] s t [He Hv] _ IH]; [discriminate|]. cbn [fst snd] in *. subst y. rewrite !assoc_cons.
  destruct (same x n); [intros [= ->]; by exists v|exact IH].
Qed.
Lemma scope_dom h s t : Forall2 (fun (q : str * entry) (x : str * hnd) => fst q = fst x /\ holds h (snd x) (e_ty (snd q))) s t ->
  map fst s = map fst t.
Proof. induction 1 as [|q x s t [He _] _ IH]; [reflexivity|]. cbn [map]. by rewrite He, IH. Qed.
Lemma env_step h G E : env_ok h G E -> in_step G E.
Proof. unfold env_ok, in_step. intros O. eapply Forall2_impl; [exact O|]. intros s t. apply scope_dom. Qed.
Lemma env_lookup h G E n e : env_ok h G E -> lookup_all n G = Some e -> exists d, lookup_all n E = Some d /\ holds h d (e_ty e).
Proof.
  induction 1 as [|s t G E H _ IH]; [discriminate|]. cbn [lookup_all]. destruct (assoc n s) as [q|] eqn:A.
  - intros [= ->]. destruct (scope_assoc _ _ _ _ _ H A) as (d & -> & Hd). by exists d.
  - rewrite (assoc_none_dom n s t (scope_dom _ _ _ H) A). exact IH.
Qed.
Lemma scope_set h s t n e d : Forall2 (fun q x => fst q = fst x /\ holds h (snd x) (e_ty (snd q))) s t ->
  assoc n s = Some e -> holds h d (e_ty e) ->
  Forall2 (fun q x => fst q = fst x /\ holds h (snd x) (e_ty (snd q))) s (set_assoc n d t).
Proof.
  induction 1 as [|[x q] [y v] s t [He Hv] HF IH]; [discriminate|]. cbn [fst snd] in *. subst y. rewrite assoc_cons.
  cbn [set_assoc fst]. destruct (same x n).
  - intros [= ->] Hd. constructor; [done|exact HF].
  - intros A Hd. constructor; [done|by apply IH].
Qed.
Lemma env_set h G E n e d : env_ok h G E -> lookup_all n G = Some e -> holds h d (e_ty e) -> env_ok h G (set_all n d E).
Proof.
  induction 1 as [|s t G E H HF IH]; [discriminate|]. cbn [lookup_all set_all]. destruct (assoc n s) as [q|] eqn:A.
  - intros [= ->] Hd. destruct (scope_assoc _ _ _ _ _ H A) as (d0 & -> & _). constructor; [by eapply scope_set|exact HF].
  - rewrite (assoc_none_dom n s t (scope_dom _ _ _ H) A). intros L Hd. constructor; [exact H|by apply IH].
Qed.

(** ** Changing the heap *)
Lemma lookup_insert_obj (h : heap) o x x' o' : h !! o = Some x ->
  <[o := x']> h !! o' = if decide (o = o') then Some x' else h !! o'.
Proof.
  intros H. apply lookup_lt_Some in H. destruct (decide (o = o')) as [<-|hn].
  - by apply list_lookup_insert.
  - by apply list_lookup_insert_ne.
Qed.
Lemma grow_insert (h : heap) o x x' : h !! o = Some x -> o_ty x' = o_ty x -> grow h (<[o := x']> h).
Proof.
  intros H T o' y Hy. rewrite (lookup_insert_obj _ _ _ _ _ H). destruct (decide (o = o')) as [<-|]; [|by exists y].
  exists x'. split; [done|]. congruence.
Qed.
Lemma insert_typed P (h : heap) o x x' : well_typed P h -> h !! o = Some x -> o_ty x' = o_ty x ->
  (forall c k, o_ty x = TCls c -> find_class P c = Some k ->
     forall n b, find_member k n = Some b -> exists d, assoc n (o_mem x') = Some d /\ holds h d (b_ty b)) ->
  well_typed P (<[o := x']> h).
Proof.
  intros W H T M. pose proof (grow_insert _ _ _ _ H T) as Gr. intros o' y Hy.
  rewrite (lookup_insert_obj _ _ _ _ _ H) in Hy. destruct (decide (o = o')) as [<-|].
  - injection Hy as <-. destruct (W o x H) as (c & k & Tc & Fk & _). exists c, k. rewrite T. repeat split; auto.
    intros n b Hb. destruct (M c k Tc Fk n b Hb) as (d & Hd & Hh). exists d. split; [done|]. by eapply holds_grow.
  - destruct (W o' y Hy) as (c & k & Tc & Fk & M'). exists c, k. repeat split; auto.
    intros n0 b Hb. destruct (M' n0 b Hb) as (d & Hd & Hh). exists d. split; [done|]. by eapply holds_grow.
Qed.
Lemma set_val_typed P h o v : well_typed P h -> well_typed P (set_val h o v) /\ grow h (set_val h o v).
Proof.
  intros W. unfold set_val. destruct (h !! o) as [x|] eqn:H; [|split; [done|apply grow_refl]]. split.
  - apply (insert_typed P h o x); auto. intros c k Tc Fk n b Hb. destruct (W o x H) as (c' & k' & Tc' & Fk' & M).
    cbn [o_mem]. assert (k' = k) as -> by congruence. by apply M.
  - by apply (grow_insert h o x).
Qed.
Lemma assign_typed P h l r t h' d : well_typed P h -> holds h l t -> holds h r t -> assign h l r = (h', d) ->
  well_typed P h' /\ grow h h' /\ holds h' d t.
Proof.
  unfold assign. intros W Hl Hr. destruct (h_isref r) eqn:Er.
  - intros [= <- <-]. split; [done|]. split; [apply grow_refl|]. destruct t as [|c].
    + destruct Hr as [Hr _]. congruence.
    + exact Hr.
  - destruct (h_ref l) as [o|] eqn:El.
    + intros [= <- <-]. destruct (set_val_typed P h o (get_value h r) W) as [W' Gr]. split; [done|]. split; [done|].
      destruct t as [|c].
      * destruct Hl as [_ Hl]. congruence.
      * intros o' [= <-]. destruct (Hl o El) as (x & Hx & Tx). destruct (Gr o x Hx) as (x' & Hx' & Tx'). exists x'.
        split; [done|congruence].
    + intros [= <- <-]. split; [done|]. split; [apply grow_refl|]. destruct t; [done|]. intros o [=].
Qed.
Lemma result_typed h d t : holds h d t -> holds h (snd (assign h blank d)) t.
Proof.
  unfold assign. destruct (h_isref d) eqn:E; cbn [snd h_ref].
  - destruct t; [intros [? _]; congruence|done].
  - intros _. destruct t; [done|]. intros o [=].
Qed.
Lemma pass_typed h d t : holds h d t -> holds h (pass h d) t.
Proof.
  unfold pass. destruct t as [|c].
  - intros [_ ->]. done.
  - intros H. destruct (h_ref d) as [o|] eqn:Ed; [|intros o [=]]. intros o' [= <-]. by apply H.
Qed.

(** ** Typed places *)
Definition slot (P : prog) (h : heap) (G : scopes) (l : loc) (t : ty) : Prop :=
  match l with
  | LVar n => exists e, lookup_all n G = Some e /\ e_ty e = t
  | LMem o n => exists x c k b, h !! o = Some x /\ o_ty x = TCls c /\ find_class P c = Some k /\ find_member k n = Some b /\ b_ty b = t
  end.
Lemma slot_grow P h h' G l t : grow h h' -> slot P h G l t -> slot P h' G l t.
Proof.
  intros Gr. destruct l as [n|o n]; cbn [slot]; [done|]. intros (x & c & k & b & Hx & Tx & Fk & Fb & Tb).
  destruct (Gr o x Hx) as (x' & Hx' & Tx'). exists x', c, k, b. repeat split; auto. congruence.
Qed.
Lemma slot_read P h G E l t : well_typed P h -> env_ok h G E -> slot P h G l t -> exists d, read_loc h E l = Some d /\ holds h d t.
Proof.
  intros W O. destruct l as [n|o n]; cbn [slot read_loc].
  - intros (e & L & <-). exact (env_lookup _ _ _ _ _ O L).
  - intros (x & c & k & b & Hx & Tx & Fk & Fb & <-). rewrite Hx. destruct (W o x Hx) as (c' & k' & Tc & Fk' & M).
    assert (k' = k) as -> by congruence. by apply M.
Qed.
Lemma slot_write P h G E l t d h' E' : well_typed P h -> env_ok h G E -> slot P h G l t -> holds h d t ->
  write_loc h E l d = (h', E') -> well_typed P h' /\ grow h h' /\ env_ok h' G E'.
Proof.
  intros W O. destruct l as [n|o n]; cbn [slot write_loc].
  - intros (e & L & <-) Hd [= <- <-]. split; [done|]. split; [apply grow_refl|]. by eapply env_set.
  - intros (x & c & k & b & Hx & Tx & Fk & Fb & <-) Hd. rewrite Hx. intros [= <- <-].
    assert (Gr : grow h (<[o:=HObj (o_ty x) (o_val x) (set_assoc n d (o_mem x))]> h)) by (by apply (grow_insert h o x)).
    split; [|split; [exact Gr|by eapply env_grow]].
    apply (insert_typed P h o x); auto. intros c' k' Tc Fk' n' b' Fb'. cbn [o_mem].
    assert (k' = k) as -> by congruence.
    destruct (W o x Hx) as (c2 & k2 & Tc2 & Fk2 & M). assert (k2 = k) as -> by congruence.
    destruct (M n' b' Fb') as (d' & Hd' & Hh). destruct (decide (n = n')) as [<-|hn].
    + exists d. assert (b' = b) as -> by congruence. split; [|done]. apply assoc_set. by exists d'.
    + exists d'. rewrite assoc_set_ne by done. done.
Qed.

(** ** Paths *)
Lemma parts_in_path P k p ps : parts_in P k p = Some ps -> path_of ps = p.
Proof.
  revert k ps; induction p as [|n r IH]; intros k ps; cbn [parts_in]; [by intros [= <-]|].
  destruct (find_member k n) as [b|].
  - destruct r as [|n' r]; [by intros [= <-]|]. destruct (b_ty b) as [|c]; [discriminate|].
    destruct (find_class P c) as [k'|]; [|discriminate]. destruct (parts_in P k' (n' :: r)) as [qs|] eqn:F; [|discriminate].
    intros [= <-]. unfold path_of in *. cbn [map t_name]. f_equal. exact (IH _ _ F).
  - destruct (find_method k n) as [f|]; [|discriminate]. destruct r; [by intros [= <-]|discriminate].
Qed.
Lemma parts_in_slot P k p ps h G o x q t l :
  well_typed P h -> parts_in P k p = Some ps -> last ps = Some q -> t_meth q = None -> t_ty q = Some t ->
  h !! o = Some x -> o_ty x = TCls (c_name k) -> find_class P (c_name k) = Some k ->
  loc_in h o p = Some l -> slot P h G l t.
Proof.
  intros W. revert k ps o x. induction p as [|n r IH]; intros k ps o x Hp Hq Hm Ht Hx Tx Fk Hl; [discriminate|].
  cbn [parts_in] in Hp. cbn [loc_in] in Hl. rewrite Hx in Hl.
  destruct (find_member k n) as [b|] eqn:Fb.
  - destruct (assoc n (o_mem x)) as [d|] eqn:A; [|discriminate]. destruct r as [|n' r].
    + injection Hp as <-. cbn in Hq. injection Hq as <-. cbn [t_ty] in Ht. injection Ht as <-. injection Hl as <-.
      exists x, (c_name k), k, b. auto.
    + destruct (b_ty b) as [|c] eqn:Tb; [discriminate|]. destruct (find_class P c) as [k'|] eqn:Fk'; [|discriminate].
      destruct (parts_in P k' (n' :: r)) as [qs|] eqn:F; [|discriminate]. injection Hp as <-.
      destruct (h_ref d) as [o'|] eqn:Ed; [|discriminate].
      destruct (W o x Hx) as (c2 & k2 & Tc2 & Fk2 & M). assert (k2 = k) as -> by congruence.
      destruct (M n b Fb) as (d' & A' & Hh). assert (d' = d) as -> by congruence. rewrite Tb in Hh.
      destruct (Hh o' Ed) as (x' & Hx' & Tx'). destruct (find_class_spec _ _ _ Fk') as [_ Nk].
      apply (IH k' qs o' x'); auto; try congruence.
      destruct qs as [|q0 qs]; [exfalso; by apply (parts_in_nonempty _ _ _ _ F)|]. exact Hq.
  - destruct (find_method k n) as [f|]; [|discriminate]. destruct r; [|discriminate]. injection Hp as <-. cbn in Hq.
    injection Hq as <-. discriminate.
Qed.

Definition this_ok (k : cls) (G : scopes) : Prop := exists e, lookup_all str_this G = Some e /\ e_ty e = TCls (c_name k).

Lemma last_cons_ne {A} (x : A) l : l <> [] -> last (x :: l) = last l.
Proof. by destruct l. Qed.

Lemma resolve_slot P k m G p ps h E q t l :
  well_typed P h -> env_ok h G E -> find_class P (c_name k) = Some k -> this_ok k G ->
  resolve_path P k m G p = Some ps -> last ps = Some q -> t_meth q = None -> t_ty q = Some t ->
  loc_of h E (path_of ps) = Some l -> slot P h G l t.
Proof.
  intros W O Fk (et & Lt & Tt) R Hq Hm Ht Hl. unfold resolve_path in R. destruct p as [|n r]; [discriminate|].
  destruct (is_member_name k n).
  - destruct (parts_in P k (n :: r)) as [qs|] eqn:F; [|discriminate]. injection R as <-.
    assert (qs <> []) as hq by (by apply (parts_in_nonempty _ _ _ _ F)).
    rewrite last_cons_ne in Hq by done. unfold path_of in Hl. cbn [map t_name] in Hl. fold (path_of qs) in Hl.
    rewrite (parts_in_path _ _ _ _ F) in Hl. cbn [loc_of] in Hl.
    destruct (env_lookup _ _ _ _ _ O Lt) as (d & Ld & Hd). rewrite Ld in Hl. rewrite Tt in Hd.
    destruct (h_ref d) as [o|] eqn:Ed; [|discriminate]. destruct (Hd o Ed) as (x & Hx & Tx).
    exact (parts_in_slot P k (n :: r) qs h G o x q t l W F Hq Hm Ht Hx Tx Fk Hl).
  - cbn [parts_local] in R. destruct (lookup_all n G) as [e|] eqn:L; [|discriminate]. destruct r as [|n' r].
    + injection R as <-. cbn in Hq. injection Hq as <-. cbn [t_ty] in Ht. injection Ht as <-.
      cbn [path_of map t_name loc_of] in Hl. destruct (lookup_all n E); [|discriminate]. injection Hl as <-. exists e. auto.
    + destruct (e_ty e) as [|c] eqn:Te; [discriminate|]. destruct (find_class P c) as [k'|] eqn:Fk'; [|discriminate].
      destruct (parts_in P k' (n' :: r)) as [qs|] eqn:F; [|discriminate]. injection R as <-.
      assert (qs <> []) as hq by (by apply (parts_in_nonempty _ _ _ _ F)).
      rewrite last_cons_ne in Hq by done. unfold path_of in Hl. cbn [map t_name] in Hl. fold (path_of qs) in Hl.
      rewrite (parts_in_path _ _ _ _ F) in Hl. cbn [loc_of] in Hl.
      destruct (env_lookup _ _ _ _ _ O L) as (d & Ld & Hd). rewrite Ld in Hl. rewrite Te in Hd.
      destruct (h_ref d) as [o|] eqn:Ed; [|discriminate]. destruct (Hd o Ed) as (x & Hx & Tx).
      destruct (find_class_spec _ _ _ Fk') as [_ Nk].
      apply (parts_in_slot P k' (n' :: r) qs h G o x q t l W F Hq Hm Ht Hx); auto; congruence.
Qed.

(** The class of the last name of a path does not depend on the heap. *)
Lemma parts_in_owner P q ow f fn p : t_meth q = Some (ow, f) -> forall k qs rp,
  find_class P (c_name k) = Some k -> parts_in P k p = Some qs -> last qs = Some q -> rev p = fn :: rp ->
  (exists k2, find_class P ow = Some k2 /\ find_method k2 fn = Some f) /\ (rp = [] -> ow = c_name k).
Proof.
  intros Hm. induction p as [|y s IHp]; intros k qs rp Fk Hp Hq Hr; [discriminate|].
  cbn [parts_in] in Hp. destruct (find_member k y) as [b|].
  - destruct s as [|y' s]; [injection Hp as <-; cbn in Hq; injection Hq as <-; discriminate|].
    destruct (b_ty b) as [|c]; [discriminate|]. destruct (find_class P c) as [k1|] eqn:F1; [|discriminate].
    destruct (parts_in P k1 (y' :: s)) as [zs|] eqn:F; [|discriminate]. injection Hp as <-.
    assert (zs <> []) as hz by (by apply (parts_in_nonempty _ _ _ _ F)). rewrite last_cons_ne in Hq by done.
    destruct (find_class_spec _ _ _ F1) as [_ N1].
    destruct (rev (y' :: s)) as [|a0 rp0] eqn:Er.
    { apply (f_equal (@rev str)) in Er. rewrite rev_involutive in Er. discriminate. }
    cbn [rev] in Hr, Er. rewrite Er in Hr. cbn [app] in Hr. injection Hr as -> <-.
    assert (F1' : find_class P (c_name k1) = Some k1) by congruence.
    destruct (IHp k1 zs rp0 F1' F Hq eq_refl) as [X _]. split; [exact X|]. intros Z. by destruct rp0.
  - destruct (find_method k y) as [g|] eqn:Fg; [|discriminate]. destruct s; [|discriminate]. injection Hp as <-.
    cbn in Hq. injection Hq as <-. cbn [t_meth] in Hm. injection Hm as <- <-. cbn [rev app] in Hr. injection Hr as <- <-.
    split; [exists k; auto|reflexivity].
Qed.

(** The object a method is called on. *)
Lemma parts_in_call P k p ps h G o x q ow f fn rp l :
  well_typed P h -> parts_in P k p = Some ps -> last ps = Some q -> t_meth q = Some (ow, f) ->
  h !! o = Some x -> o_ty x = TCls (c_name k) -> find_class P (c_name k) = Some k ->
  rev p = fn :: rp -> 
  (exists k', find_class P ow = Some k' /\ find_method k' fn = Some f)
  /\ (rp = [] -> ow = c_name k)
  /\ (rp <> [] -> loc_in h o (rev rp) = Some l -> slot P h G l (TCls ow)).
Proof.
  intros W. revert k ps o x rp. induction p as [|n r IH]; intros k ps o x rp Hp Hq Hm Hx Tx Fk Hr; [discriminate|].
  cbn [parts_in] in Hp. destruct (find_member k n) as [b|] eqn:Fb.
  - destruct r as [|n' r].
    + injection Hp as <-. cbn in Hq. injection Hq as <-. discriminate.
    + destruct (b_ty b) as [|c] eqn:Tb; [discriminate|]. destruct (find_class P c) as [k'|] eqn:Fk'; [|discriminate].
      destruct (parts_in P k' (n' :: r)) as [qs|] eqn:F; [|discriminate]. injection Hp as <-.
      assert (qs <> []) as hq by (by apply (parts_in_nonempty _ _ _ _ F)). rewrite last_cons_ne in Hq by done.
      destruct (find_class_spec _ _ _ Fk') as [_ Nk].
      destruct (rev (n' :: r)) as [|fn' rp'] eqn:Er.
      { apply (f_equal (@rev str)) in Er. rewrite rev_involutive in Er. discriminate. }
      cbn [rev] in Hr. cbn [rev] in Er. rewrite Er in Hr. cbn [app] in Hr. injection Hr as -> <-.
      destruct (W o x Hx) as (c2 & k2 & Tc2 & Fk2 & M). assert (k2 = k) as -> by congruence.
      destruct (M n b Fb) as (d & A & Hh). rewrite Tb in Hh.
      assert (base : (exists k2, find_class P ow = Some k2 /\ find_method k2 fn = Some f) /\ (rp' = [] -> ow = c_name k')).
      { apply (parts_in_owner P q ow f fn (n' :: r) Hm k' qs rp'); auto; congruence. }
      destruct base as [B1 B2]. split; [exact B1|]. split; [intros Z; by destruct rp'|]. intros _ Hl.
      rewrite rev_app_distr in Hl. cbn [rev app] in Hl. cbn [loc_in] in Hl. rewrite Hx, A in Hl.
      destruct (rev rp') as [|z zs] eqn:Ez.
      * injection Hl as <-. apply (f_equal (@rev str)) in Ez. rewrite rev_involutive in Ez. cbn [rev] in Ez. subst rp'.
        exists x, (c_name k), k, b. rewrite Tb. repeat split; auto. rewrite (B2 eq_refl), Nk. reflexivity.
      * destruct (h_ref d) as [o'|] eqn:Ed; [|discriminate]. destruct (Hh o' Ed) as (x' & Hx' & Tx').
        assert (T2 : o_ty x' = TCls (c_name k')) by congruence. assert (F2 : find_class P (c_name k') = Some k') by congruence.
        destruct (IH k' qs o' x' rp' F Hq Hm Hx' T2 F2 eq_refl) as (_ & _ & X). rewrite Ez in X. apply X; [|exact Hl].
        intros ->. discriminate.
  - destruct (find_method k n) as [g|] eqn:Fg; [|discriminate]. destruct r; [|discriminate]. injection Hp as <-.
    cbn in Hq. injection Hq as <-. cbn [t_meth] in Hm. injection Hm as <- <-. cbn [rev app] in Hr. injection Hr as <- <-.
    split; [exists k; auto|]. split; [reflexivity|]. done.
Qed.

Lemma resolve_call P k m G p ps h E q ow f fn rp l :
  well_typed P h -> env_ok h G E -> find_class P (c_name k) = Some k -> this_ok k G ->
  resolve_path P k m G p = Some ps -> last ps = Some q -> t_meth q = Some (ow, f) ->
  rev (path_of ps) = fn :: rp -> loc_of h E (rev rp) = Some l ->
  (exists k', find_class P ow = Some k' /\ find_method k' fn = Some f) /\ slot P h G l (TCls ow).
Proof.
  intros W O Fk (et & Lt & Tt) R Hq Hm Hr Hl. unfold resolve_path in R. destruct p as [|n r]; [discriminate|].
  assert (both : forall n0 k0 pr qs e, find_class P (c_name k0) = Some k0 -> parts_in P k0 pr = Some qs -> pr <> [] -> last qs = Some q ->
            lookup_all n0 G = Some e -> e_ty e = TCls (c_name k0) -> rev (n0 :: pr) = fn :: rp ->
            (exists k', find_class P ow = Some k' /\ find_method k' fn = Some f) /\ slot P h G l (TCls ow)).
  { intros n0 k0 pr qs e Fk0 F hpr Hq0 L Te Hr0.
    destruct (rev pr) as [|a0 rp0] eqn:Er.
    { exfalso. apply hpr. apply (f_equal (@rev str)) in Er. by rewrite rev_involutive in Er. }
    cbn [rev] in Hr0. rewrite Er in Hr0. cbn [app] in Hr0. injection Hr0 as -> <-.
    rewrite rev_app_distr in Hl. cbn [rev app] in Hl. cbn [loc_of] in Hl.
    destruct (env_lookup _ _ _ _ _ O L) as (d & Ld & Hd). rewrite Ld in Hl. rewrite Te in Hd.
    destruct (h_ref d) as [o1|] eqn:Ed.
    - destruct (Hd o1 Ed) as (x & Hx & Tx).
      destruct (parts_in_call P k0 pr qs h G o1 x q ow f fn rp0 l W F Hq0 Hm Hx Tx Fk0 Er) as (X1 & X2 & X3).
      split; [exact X1|]. destruct (rev rp0) as [|z zs] eqn:Ez.
      + injection Hl as <-. apply (f_equal (@rev str)) in Ez. rewrite rev_involutive in Ez. cbn [rev] in Ez.
        exists e. split; [exact L|]. rewrite (X2 Ez). exact Te.
      + apply X3; [|exact Hl]. intros ->. discriminate.
    - destruct (rev rp0) as [|z zs] eqn:Ez; [|discriminate]. injection Hl as <-.
      apply (f_equal (@rev str)) in Ez. rewrite rev_involutive in Ez. cbn [rev] in Ez. subst rp0.
      destruct pr as [|y [|y' s]]; [done| |].
      + cbn [parts_in] in F. cbn [rev app] in Er. injection Er as ->. destruct (find_member k0 fn) as [b|].
        { injection F as <-. cbn in Hq0. injection Hq0 as <-. discriminate. }
        destruct (find_method k0 fn) as [g|] eqn:Fg; [|discriminate]. injection F as <-. cbn in Hq0. injection Hq0 as <-.
        cbn [t_meth] in Hm. injection Hm as <- <-. split; [exists k0; auto|]. exists e. auto.
      + exfalso. apply (f_equal (@length str)) in Er. rewrite rev_length in Er. discriminate. }
  destruct (is_member_name k n).
  - destruct (parts_in P k (n :: r)) as [qs|] eqn:F; [|discriminate]. injection R as <-.
    assert (qs <> []) as hq by (by apply (parts_in_nonempty _ _ _ _ F)).
    rewrite last_cons_ne in Hq by done. unfold path_of in Hr. cbn [map t_name] in Hr. fold (path_of qs) in Hr.
    rewrite (parts_in_path _ _ _ _ F) in Hr. by apply (both str_this k (n :: r) qs et).
  - cbn [parts_local] in R. destruct (lookup_all n G) as [e|] eqn:L; [|discriminate]. destruct r as [|n' r].
    + injection R as <-. cbn in Hq. injection Hq as <-. discriminate.
    + destruct (e_ty e) as [|c] eqn:Te; [discriminate|]. destruct (find_class P c) as [k'|] eqn:Fk'; [|discriminate].
      destruct (parts_in P k' (n' :: r)) as [qs|] eqn:F; [|discriminate]. injection R as <-.
      assert (qs <> []) as hq by (by apply (parts_in_nonempty _ _ _ _ F)).
      rewrite last_cons_ne in Hq by done. unfold path_of in Hr. cbn [map t_name] in Hr. fold (path_of qs) in Hr.
      rewrite (parts_in_path _ _ _ _ F) in Hr. destruct (find_class_spec _ _ _ Fk') as [_ Nk].
      apply (both n k' (n' :: r) qs e); auto; congruence.
Qed.

(** ** Names that do not matter *)
Lemma resolve_weaken P k m s r n q p : head_is n p = false ->
  resolve_path P k m (((n, q) :: s) :: r) p = resolve_path P k m (s :: r) p.
Proof.
  intros H. destruct p as [|x p]; [reflexivity|]. cbn [head_is] in H. cbn [resolve_path parts_local lookup_all].
  rewrite assoc_cons. replace (same n x) with false; [reflexivity|]. symmetry. apply same_neq. intros ->. by rewrite same_refl in H.
Qed.
Lemma gen_weaken P k m s r n q e : mentions n e = false ->
  gen_expr P k m (((n, q) :: s) :: r) e = gen_expr P k m (s :: r) e.
Proof.
  assert (args : forall l, Forall (fun e => mentions n e = false -> gen_expr P k m (((n, q) :: s) :: r) e = gen_expr P k m (s :: r) e) l ->
            existsb (mentions n) l = false -> gen_args P k m (((n, q) :: s) :: r) l = gen_args P k m (s :: r) l).
  { induction 1 as [|a l Ha _ IH]; [reflexivity|]. cbn [existsb]. intros [h1 h2]%orb_false_iff. cbn [gen_args].
    by rewrite (Ha h1), (IH h2). }
  induction e as [z|p|a b IHa IHb|p a IHa|p d|p l IHl|t l IHl] using expr_ind'; cbn [mentions].
  - reflexivity.
  - intros H. cbn [gen_expr]. by rewrite resolve_weaken.
  - intros [h1 h2]%orb_false_iff. cbn [gen_expr]. by rewrite (IHa h1), (IHb h2).
  - intros [h1 h2]%orb_false_iff. cbn [gen_expr]. by rewrite resolve_weaken, (IHa h2).
  - intros H. cbn [gen_expr]. by rewrite resolve_weaken.
  - intros [h1 h2]%orb_false_iff. rewrite !gen_call_eq. by rewrite resolve_weaken, (args l IHl h2).
  - intros H. rewrite !gen_new_eq. by rewrite (args l IHl H).
Qed.

(** ** The start of a call *)
Lemma bind_typed h ps vs acc s sc : suits h ps vs -> bind_params h ps vs acc = Some s ->
  Forall2 (fun q x => fst q = fst x /\ holds h (snd x) (e_ty (snd q))) sc acc ->
  Forall2 (fun q x => fst q = fst x /\ holds h (snd x) (e_ty (snd q))) (rev (param_entries ps) ++ sc) s.
Proof.
  intros H. revert acc s sc. induction H as [|p v ps vs Hv _ IH]; intros acc s sc B A; cbn [bind_params] in B.
  - injection B as <-. exact A.
  - cbn [param_entries map rev]. rewrite <- app_assoc. cbn [app]. eapply IH; [exact B|]. constructor; [|exact A].
    cbn [fst snd e_ty]. split; [reflexivity|]. by apply pass_typed.
Qed.
Lemma method_this k m : NoDup (map fst (method_scope k m)) -> this_ok k [method_scope k m].
Proof.
  unfold method_scope. intros H. exists (Ent (TCls (c_name k)) false true). split; [|reflexivity]. cbn [lookup_all].
  rewrite assoc_app. destruct (assoc str_this (rev (param_entries (m_params m)))) as [e|] eqn:A.
  - exfalso. apply assoc_in in A. rewrite map_app in H. apply NoDup_app in H as (_ & H & _). apply (H _ A). cbn. left.
  - rewrite assoc_cons, same_refl. reflexivity.
Qed.
Lemma new_typed P h k : well_typed P h -> find_class P (c_name k) = Some k ->
  well_typed P (h ++ [new_object k]) /\ grow h (h ++ [new_object k]).
Proof.
  intros W F. assert (Gr : grow h (h ++ [new_object k])).
  { intros o x H. exists x. split; [|done]. by apply lookup_app_l_Some. }
  split; [|exact Gr]. intros o x Hx. apply lookup_app_Some in Hx as [Hx|[_ Hx]].
  - destruct (W o x Hx) as (c & k' & Tc & Fk & M). exists c, k'. repeat split; auto. intros n b Hb.
    destruct (M n b Hb) as (d & A & Hd). exists d. split; [exact A|]. by eapply holds_grow.
  - destruct (o - length h)%nat; [|discriminate]. injection Hx as <-. exists (c_name k), k. repeat split; auto.
    intros n b Hb. exists blank. split; [|apply holds_blank]. cbn [new_object o_mem]. revert Hb. unfold find_member.
    generalize (c_members k). clear. intros l. induction l as [|a l IH]; [discriminate|]. cbn [List.find map]. rewrite assoc_cons.
    destruct (same (b_name a) n); [reflexivity|exact IH].
Qed.

(** ** Running *)
Definition T_expr (n : nat) : Prop :=
  forall P k m G h E e e' i h' E' d,
    sober P -> find_class P (c_name k) = Some k -> this_ok k G -> gen_expr P k m G e = Some (e', i) -> no_new_int e = true ->
    well_typed P h -> env_ok h G E -> eval n P h E e' = Ok (h', E', d) ->
    well_typed P h' /\ grow h h' /\ env_ok h' G E' /\ forall t, i_ty i = Some t -> holds h' d t.
Definition T_args (n : nat) : Prop :=
  forall P k m G h E l l' is h' E' ds,
    sober P -> find_class P (c_name k) = Some k -> this_ok k G -> gen_args P k m G l = Some (l', is) -> forallb no_new_int l = true ->
    well_typed P h -> env_ok h G E -> eval_args n P h E l' = Ok (h', E', ds) ->
    well_typed P h' /\ grow h h' /\ env_ok h' G E' /\ Forall2 (fun i d => forall t, i_ty i = Some t -> holds h' d t) is ds.
Definition T_call (n : nat) : Prop :=
  forall P h o x c k f m vs h' d,
    sober P -> well_typed P h -> h !! o = Some x -> o_ty x = TCls c -> find_class P c = Some k -> find_method k f = Some m ->
    suits h (m_params m) vs -> call n P h o f vs = Ok (h', d) ->
    well_typed P h' /\ grow h h' /\ forall t, m_ret m = Some t -> holds h' d t.
Definition after (m : meth) (h : heap) (G G' : scopes) (h' : heap) (E' : env) (fl : flow) (P : prog) : Prop :=
  well_typed P h' /\ grow h h' /\ (exists G1, env_ok h' G1 E' /\ tail G1 = tail G /\ (fl = FNormal -> G1 = G'))
  /\ forall d t, fl = FReturn d -> m_ret m = Some t -> holds h' d t.
Definition T_stmt (n : nat) : Prop :=
  forall P k m G h E s s' G' h' E' fl,
    sober P -> find_class P (c_name k) = Some k -> this_ok k G -> G <> [] -> gen_stmt P k m G s = Some (s', G') ->
    all_exprs no_new_int s = true -> all_decls var_fresh s = true ->
    well_typed P h -> env_ok h G E -> exec1 n P h E s' = Ok (h', E', fl) -> after m h G G' h' E' fl P.
Definition T_stmts (n : nat) : Prop :=
  forall P k m G h E ss ss' G' h' E' fl,
    sober P -> find_class P (c_name k) = Some k -> this_ok k G -> G <> [] -> gen_stmts P k m G ss = Some (ss', G') ->
    forallb (all_exprs no_new_int) ss = true -> forallb (all_decls var_fresh) ss = true ->
    well_typed P h -> env_ok h G E -> exec n P h E ss' = Ok (h', E', fl) -> after m h G G' h' E' fl P.

Lemma args_suit h ps is ds : args_ok ps is = true -> Forall2 (fun i d => forall t, i_ty i = Some t -> holds h d t) is ds -> suits h ps ds.
Proof.
  intros A H. revert ps A. induction H as [|i d is ds Hd _ IH]; intros [|p ps] A; cbn [args_ok] in A; try discriminate; [constructor|].
  apply andb_true_iff in A as [A A3]. apply andb_true_iff in A as [A1 _]. apply bool_decide_eq_true in A1.
  constructor; [by apply Hd|by apply IH].
Qed.
Lemma this_declare k s r n e : this_ok k (s :: r) -> same n str_this = false -> this_ok k (((n, e) :: s) :: r).
Proof.
  intros (q & L & T) H. exists q. split; [|exact T]. cbn [lookup_all] in *. rewrite assoc_cons, H. exact L.
Qed.
Lemma this_block k G : this_ok k G -> this_ok k ([] :: G).
Proof. intros (q & L & T). by exists q. Qed.
Lemma this_stmt P k m G s s' G' : this_ok k G -> all_decls var_fresh s = true -> gen_stmt P k m G s = Some (s', G') -> this_ok k G'.
Proof.
  intros T F H. destruct s as [e|t n c [e|]|n c e|e a b|e b|[e|]].
  - cbn [gen_stmt] in H. destruct (gen_expr P k m G e) as [[e' i]|]; [|discriminate]. by injection H as _ <-.
  - cbn [gen_stmt] in H. destruct (ty_ok P t); [|discriminate]. destruct (declare G n _) as [G1|] eqn:D; [|discriminate].
    destruct (gen_expr P k m G1 e) as [[e' i]|]; [|discriminate]. destruct (bool_decide _); [|discriminate].
    injection H as _ <-. apply declare_inv in D as (sc & r & -> & ->). apply this_declare; [exact T|].
    cbn [all_decls var_fresh] in F. apply andb_true_iff in F as [F _]. by apply negb_true_iff in F.
  - cbn [gen_stmt] in H. destruct (ty_ok P t); [|discriminate]. destruct (declare G n _) as [G1|] eqn:D; [|discriminate].
    injection H as _ <-. apply declare_inv in D as (sc & r & -> & ->). apply this_declare; [exact T|].
    cbn [all_decls var_fresh] in F. apply andb_true_iff in F as [F _]. by apply negb_true_iff in F.
  - cbn [gen_stmt] in H. destruct (gen_expr P k m G e) as [[e' i]|]; [|discriminate]. destruct (i_ty i); [|discriminate].
    destruct (_ && _); [discriminate|]. destruct (declare G n _) as [G1|] eqn:D; [|discriminate].
    injection H as _ <-. apply declare_inv in D as (sc & r & -> & ->). apply this_declare; [exact T|].
    cbn [all_decls var_fresh] in F. apply andb_true_iff in F as [F _]. by apply negb_true_iff in F.
  - rewrite gen_if_eq in H. destruct (gen_expr P k m G e) as [[e' i]|]; [|discriminate].
    destruct (gen_stmts P k m _ a) as [[a' ?]|]; [|discriminate]. destruct (gen_stmts P k m _ b) as [[b' ?]|]; [|discriminate].
    by injection H as _ <-.
  - rewrite gen_while_eq in H. destruct (gen_expr P k m G e) as [[e' i]|]; [|discriminate].
    destruct (gen_stmts P k m _ b) as [[b' ?]|]; [|discriminate]. by injection H as _ <-.
  - cbn [gen_stmt] in H. destruct (gen_expr P k m G e) as [[e' i]|]; [|discriminate]. destruct (_ && _); [|discriminate].
    by injection H as _ <-.
  - cbn [gen_stmt] in H. destruct (bool_decide _); [|discriminate]. by injection H as _ <-.
Qed.

Lemma T_step_expr n : T_expr n -> T_args n -> T_call n -> T_expr (S n).
Proof.
  intros IHe IHa IHc P k m G h E e e' i h' E' d So Fk Th HG NI W O HE.
  destruct e as [z|p|a b|p a|p dl|p l|t l].
  - cbn [gen_expr] in HG. injection HG as <- <-. cbn [eval] in HE. injection HE as <- <- <-.
    split; [done|]. split; [apply grow_refl|]. split; [done|]. intros t [= <-]. done.
  - cbn [gen_expr] in HG. destruct (resolve_path P k m G p) as [ps|] eqn:R; [|discriminate].
    destruct (last ps) as [q|] eqn:Lq; [|discriminate]. destruct (t_meth q) eqn:Mq; [discriminate|]. injection HG as <- <-.
    cbn [eval] in HE. destruct (loc_of h E (path_of ps)) as [l|] eqn:L; [|discriminate].
    destruct (read_loc h E l) as [d0|] eqn:RL; [|discriminate]. injection HE as <- <- <-.
    split; [done|]. split; [apply grow_refl|]. split; [done|]. cbn [i_ty]. intros t Tq.
    pose proof (resolve_slot _ _ _ _ _ _ _ _ _ _ _ W O Fk Th R Lq Mq Tq L) as Sl.
    destruct (slot_read _ _ _ _ _ _ W O Sl) as (d1 & RL' & Hd). congruence.
  - cbn [gen_expr] in HG. destruct (gen_expr P k m G a) as [[a' ia]|] eqn:Ga; [|discriminate].
    destruct (gen_expr P k m G b) as [[b' ib]|] eqn:Gb; [|discriminate].
    destruct (_ && _); [|discriminate]. injection HG as <- <-. cbn [no_new_int] in NI. apply andb_true_iff in NI as [N1 N2].
    cbn [eval] in HE. apply rbind_ok in HE as ([[h1 E1] d1] & H1 & HE). cbn [fst snd] in HE.
    apply rbind_ok in HE as ([[h2 E2] d2] & H2 & HE). cbn [fst snd] in HE. injection HE as <- <- <-.
    destruct (IHe _ _ _ _ _ _ _ _ _ _ _ _ So Fk Th Ga N1 W O H1) as (W1 & G1 & O1 & _).
    destruct (IHe _ _ _ _ _ _ _ _ _ _ _ _ So Fk Th Gb N2 W1 O1 H2) as (W2 & G2 & O2 & _).
    split; [done|]. split; [by eapply grow_trans|]. split; [done|]. intros t [= <-]. done.
  - cbn [gen_expr] in HG. destruct (resolve_path P k m G p) as [ps|] eqn:R; [|discriminate].
    destruct (gen_expr P k m G a) as [[a' ia]|] eqn:Ga; [|discriminate].
    destruct (last ps) as [q|] eqn:Lq; [|discriminate]. destruct (t_meth q) eqn:Mq; [discriminate|].
    destruct (t_ty q) as [t|] eqn:Tq; [|discriminate].
    destruct (assign_ok m ps && _) eqn:A; [|discriminate]. injection HG as <- <-. apply andb_true_iff in A as [_ A].
    apply bool_decide_eq_true in A. cbn [no_new_int] in NI.
    cbn [eval] in HE. destruct (loc_of h E (path_of ps)) as [l|] eqn:L; [|discriminate].
    pose proof (resolve_slot _ _ _ _ _ _ _ _ _ _ _ W O Fk Th R Lq Mq Tq L) as Sl.
    apply rbind_ok in HE as ([[h1 E1] d1] & H1 & HE). cbn [fst snd] in HE.
    destruct (IHe _ _ _ _ _ _ _ _ _ _ _ _ So Fk Th Ga NI W O H1) as (W1 & G1 & O1 & D1).
    pose proof (slot_grow _ _ _ _ _ _ G1 Sl) as Sl1.
    destruct (slot_read _ _ _ _ _ _ W1 O1 Sl1) as (d0 & RL & Hd0). rewrite RL in HE.
    destruct (assign h1 d0 d1) as [h2 d2] eqn:AS. destruct (assign_typed _ _ _ _ _ _ _ W1 Hd0 (D1 t A) AS) as (W2 & G2 & D2).
    destruct (write_loc h2 E1 l d2) as [h3 E3] eqn:WL. injection HE as <- <- <-.
    destruct (slot_write _ _ _ _ _ _ _ _ _ W2 (env_grow _ _ _ _ G2 O1) (slot_grow _ _ _ _ _ _ G2 Sl1) D2 WL) as (W3 & G3 & O3).
    split; [done|]. split; [by eapply grow_trans; [|eapply grow_trans]|]. split; [done|].
    cbn [i_ty]. intros t' [= <-]. apply result_typed. by eapply holds_grow.
  - cbn [gen_expr] in HG. destruct (resolve_path P k m G p) as [ps|] eqn:R; [|discriminate].
    destruct (last ps) as [q|] eqn:Lq; [|discriminate]. destruct (t_meth q) eqn:Mq; [discriminate|].
    destruct (inc_ok m ps && _) eqn:A; [|discriminate]. injection HG as <- <-. apply andb_true_iff in A as [_ A].
    apply bool_decide_eq_true in A.
    cbn [eval] in HE. destruct (loc_of h E (path_of ps)) as [l|] eqn:L; [|discriminate].
    pose proof (resolve_slot _ _ _ _ _ _ _ _ _ _ _ W O Fk Th R Lq Mq A L) as Sl.
    destruct (slot_read _ _ _ _ _ _ W O Sl) as (d0 & RL & Hd0). rewrite RL in HE.
    destruct (assign h d0 _) as [h2 d2] eqn:AS.
    assert (Hn : holds h (Hnd (get_value h d0 + dl) false None) TInt) by done.
    destruct (assign_typed _ _ _ _ TInt _ _ W Hd0 Hn AS) as (W2 & G2 & D2).
    destruct (write_loc h2 E l d2) as [h3 E3] eqn:WL. injection HE as <- <- <-.
    destruct (slot_write _ _ _ _ _ _ _ _ _ W2 (env_grow _ _ _ _ G2 O) (slot_grow _ _ _ _ _ _ G2 Sl) D2 WL) as (W3 & G3 & O3).
    split; [done|]. split; [by eapply grow_trans|]. split; [done|].
    cbn [i_ty]. intros t' [= <-]. apply result_typed. by eapply holds_grow.
  - rewrite gen_call_eq in HG. destruct (resolve_path P k m G p) as [ps|] eqn:R; [|discriminate].
    destruct (gen_args P k m G l) as [[l' is]|] eqn:Gl; [|discriminate].
    destruct (last ps) as [q|] eqn:Lq; [|discriminate]. destruct (t_meth q) as [[ow f]|] eqn:Mq; [|discriminate].
    destruct (_ && _) eqn:A; [|discriminate]. injection HG as <- <-. apply andb_true_iff in A as [A _]. cbn [no_new_int] in NI.
    cbn [eval] in HE. apply rbind_ok in HE as ([[h1 E1] ds] & H1 & HE). cbn [fst snd] in HE.
    destruct (IHa _ _ _ _ _ _ _ _ _ _ _ _ So Fk Th Gl NI W O H1) as (W1 & G1 & O1 & D1).
    destruct (rev (path_of ps)) as [|fn rp] eqn:Rp; [discriminate|].
    destruct (loc_of h1 E1 (rev rp)) as [lo|] eqn:L; [|discriminate].
    destruct (resolve_call _ _ _ _ _ _ _ _ _ _ _ _ _ _ W1 O1 Fk Th R Lq Mq Rp L) as ((k' & Fk' & Fm) & Sl).
    destruct (slot_read _ _ _ _ _ _ W1 O1 Sl) as (d0 & RL & Hd0). rewrite RL in HE.
    destruct (h_ref d0) as [o|] eqn:Eo; [|discriminate]. apply rbind_ok in HE as ([h2 d2] & H2 & HE). injection HE as <- <- <-.
    destruct (Hd0 o Eo) as (x & Hx & Tx).
    destruct (IHc _ _ _ _ _ _ _ _ _ _ _ So W1 Hx Tx Fk' Fm (args_suit _ _ _ _ A D1) H2) as (W2 & G2 & D2).
    split; [done|]. split; [by eapply grow_trans|]. split; [by eapply env_grow|]. exact D2.
  - rewrite gen_new_eq in HG. destruct (gen_args P k m G l) as [[l' is]|] eqn:Gl; [|discriminate].
    cbn [no_new_int] in NI. apply andb_true_iff in NI as [N1 N2]. destruct t as [|c]; [discriminate|].
    destruct (find_class P c) as [k'|] eqn:Fk'; [|discriminate]. destruct (find_class_spec _ _ _ Fk') as [_ Nk].
    assert (Fk2 : find_class P (c_name k') = Some k') by congruence.
    assert (Hnew : forall h1 h2 : heap, grow (h1 ++ [new_object k']) h2 -> holds h2 (Hnd 0 true (Some (length h1))) (TCls c)).
    { intros h1 h2 Gr o [= <-]. apply (holds_grow _ _ (Hnd 0 true (Some (length h1))) (TCls c) Gr); [|reflexivity].
      intros o [= <-]. exists (new_object k'). split; [by apply list_lookup_middle|]. cbn [new_object o_ty]. by rewrite Nk. }
    destruct (find_method k' str_constructor) as [f|] eqn:Fm.
    + destruct (_ && _) eqn:A; [|discriminate]. injection HG as <- <-. apply andb_true_iff in A as [A _].
      cbn [eval] in HE. apply rbind_ok in HE as ([[h1 E1] ds] & H1 & HE). cbn [fst snd] in HE. rewrite Fk', Fm in HE.
      destruct (IHa _ _ _ _ _ _ _ _ _ _ _ _ So Fk Th Gl N2 W O H1) as (W1 & G1 & O1 & D1).
      destruct (new_typed P h1 k' W1 Fk2) as [W2 G2].
      apply rbind_ok in HE as ([h2 d2] & H2 & HE). injection HE as <- <- <-.
      assert (Hx : (h1 ++ [new_object k']) !! length h1 = Some (new_object k')) by (by apply list_lookup_middle).
      assert (Su : suits (h1 ++ [new_object k']) (m_params f) ds).
      { apply (args_suit _ _ is); [exact A|]. eapply Forall2_impl; [exact D1|]. intros i0 d0 Hd t Ht. eapply holds_grow; eauto. }
      destruct (IHc _ _ _ _ _ _ _ _ _ _ _ So W2 Hx eq_refl Fk2 Fm Su H2) as (W3 & G3 & _).
      split; [done|]. split; [by eapply grow_trans; [|eapply grow_trans]|].
      split; [eapply env_grow; [|exact O1]; by eapply grow_trans|]. intros t [= <-]. by apply Hnew.
    + destruct (args_ok [] is) eqn:A; [|discriminate]. injection HG as <- <-.
      cbn [eval] in HE. apply rbind_ok in HE as ([[h1 E1] ds] & H1 & HE). cbn [fst snd] in HE. rewrite Fk', Fm in HE.
      destruct (IHa _ _ _ _ _ _ _ _ _ _ _ _ So Fk Th Gl N2 W O H1) as (W1 & G1 & O1 & D1).
      destruct (new_typed P h1 k' W1 Fk2) as [W2 G2]. injection HE as <- <- <-.
      split; [done|]. split; [by eapply grow_trans|]. split; [by eapply env_grow|]. intros t [= <-]. apply Hnew, grow_refl.
Qed.

Lemma T_step_args n : T_expr n -> T_args n -> T_args (S n).
Proof.
  intros IHe IHa P k m G h E l l' is h' E' ds So Fk Th HG NI W O HE. destruct l as [|a r]; cbn [gen_args] in HG.
  - injection HG as <- <-. cbn [eval_args] in HE. injection HE as <- <- <-. repeat split; auto. apply grow_refl.
  - destruct (gen_expr P k m G a) as [[a' ia]|] eqn:Ga; [|discriminate].
    destruct (gen_args P k m G r) as [[r' ir]|] eqn:Gr'; [|discriminate]. injection HG as <- <-.
    cbn [forallb] in NI. apply andb_true_iff in NI as [N1 N2].
    cbn [eval_args] in HE. apply rbind_ok in HE as ([[h1 E1] d1] & H1 & HE). cbn [fst snd] in HE.
    apply rbind_ok in HE as ([[h2 E2] d2] & H2 & HE). cbn [fst snd] in HE. injection HE as <- <- <-.
    destruct (IHe _ _ _ _ _ _ _ _ _ _ _ _ So Fk Th Ga N1 W O H1) as (W1 & G1 & O1 & D1).
    destruct (IHa _ _ _ _ _ _ _ _ _ _ _ _ So Fk Th Gr' N2 W1 O1 H2) as (W2 & G2 & O2 & D2).
    split; [done|]. split; [by eapply grow_trans|]. split; [done|]. constructor; [|exact D2].
    intros t Ht. eapply holds_grow; eauto.
Qed.

Lemma gen_method_inv P k m b : gen_method P k m = Some b ->
  NoDup (map fst (method_scope k m)) /\ exists G', gen_stmts P k m [method_scope k m] (m_body m) = Some (b, G').
Proof.
  unfold gen_method. destruct (bool_decide _) eqn:B; [|discriminate]. apply bool_decide_eq_true in B as [B _].
  destruct (gen_stmts _ _ _ _ _) as [[b' G']|]; [|discriminate]. intros [= <-]. split; [exact B|]. by exists G'.
Qed.
Lemma call_env P k m h o x vs s b : well_typed P h -> h !! o = Some x -> o_ty x = TCls (c_name k) -> gen_method P k m = Some b ->
  suits h (m_params m) vs -> bind_params h (m_params m) vs [(str_this, Hnd 0 true (Some o))] = Some s -> env_ok h [method_scope k m] [s].
Proof.
  intros W Hx Tx _ Su B. constructor; [|constructor]. unfold method_scope. eapply bind_typed; [exact Su|exact B|].
  constructor; [|constructor]. split; [reflexivity|]. cbn [snd e_ty]. intros o' [= <-]. eauto.
Qed.

Lemma T_step_call n : T_stmts n -> T_call (S n).
Proof.
  intros IHs P h o x c k f m vs h' d So W Hx Tx Fk Fm Su HC. cbn [call] in HC. rewrite Hx, Tx, Fk, Fm in HC.
  destruct (gen_method P k m) as [b|] eqn:GM; [|discriminate].
  destruct (bind_params h (m_params m) vs _) as [s|] eqn:B; [|discriminate].
  apply rbind_ok in HC as ([[h1 E1] fl] & H1 & HC). cbn [fst snd] in HC. injection HC as <- <-.
  destruct (find_class_spec _ _ _ Fk) as [Ik Nk]. destruct (find_method_spec _ _ _ Fm) as [Im _].
  assert (Fk2 : find_class P (c_name k) = Some k) by congruence. assert (Tx2 : o_ty x = TCls (c_name k)) by congruence.
  destruct (gen_method_inv _ _ _ _ GM) as (ND & G' & GS). destruct (So k m Ik Im) as [S1 S2].
  destruct (IHs _ _ _ _ _ _ _ _ _ _ _ _ So Fk2 (method_this _ _ ND) ltac:(discriminate) GS S1 S2 W
              (call_env _ _ _ _ _ _ _ _ _ W Hx Tx2 GM Su B) H1) as (W1 & G1 & _ & D1).
  split; [done|]. split; [done|]. intros t Ht. destruct fl as [|d]; [apply holds_blank|]. by eapply D1.
Qed.

Lemma after_keep m h G h' E' fl P :
  well_typed P h' -> grow h h' -> env_ok h' G E' -> (forall d t, fl = FReturn d -> m_ret m = Some t -> holds h' d t) ->
  after m h G G h' E' fl P.
Proof. intros W Gr O D. split; [done|]. split; [done|]. split; [|done]. exists G. auto. Qed.

Lemma declaration_typed n P k m sc r h a t nm q e e' i h' E' fl :
  T_expr n -> sober P -> find_class P (c_name k) = Some k -> this_ok k (((nm, q) :: sc) :: r) ->
  gen_expr P k m (((nm, q) :: sc) :: r) e = Some (e', i) -> i_ty i = Some (e_ty q) -> no_new_int e = true ->
  well_typed P h -> env_ok h (sc :: r) (a :: t) ->
  (let! x := eval n P h (((nm, fresh (e_ty q)) :: a) :: t) e' in
   match read_loc (fst (fst x)) (snd (fst x)) (LVar nm) with
   | None => UB
   | Some d =>
       let (h2, d') := assign (fst (fst x)) d (snd x) in
       let (h3, E3) := write_loc h2 (snd (fst x)) (LVar nm) d' in Ok (h3, E3, FNormal)
   end) = Ok (h', E', fl) ->
  after m h (sc :: r) (((nm, q) :: sc) :: r) h' E' fl P.
Proof.
  intros IHe So Fk Th Ge Ti NI W O H. apply rbind_ok in H as ([[h1 E1] d1] & H1 & H). cbn [fst snd] in H.
  assert (O0 : env_ok h (((nm, q) :: sc) :: r) (((nm, fresh (e_ty q)) :: a) :: t)).
  { apply Forall2_cons in O as [O1 O2]. constructor; [|exact O2]. constructor; [|exact O1]. split; [reflexivity|]. apply holds_fresh. }
  destruct (IHe _ _ _ _ _ _ _ _ _ _ _ _ So Fk Th Ge NI W O0 H1) as (W1 & G1 & O1 & D1).
  assert (Sl : forall h, slot P h (((nm, q) :: sc) :: r) (LVar nm) (e_ty q)).
  { intros h0. exists q. split; [|reflexivity]. cbn [lookup_all]. by rewrite assoc_cons, same_refl. }
  destruct (slot_read _ _ _ _ _ _ W1 O1 (Sl h1)) as (d0 & RL & Hd0). rewrite RL in H.
  destruct (assign h1 d0 d1) as [h2 d2] eqn:AS. destruct (assign_typed _ _ _ _ _ _ _ W1 Hd0 (D1 _ Ti) AS) as (W2 & G2 & D2).
  destruct (write_loc h2 E1 (LVar nm) d2) as [h3 E3] eqn:WL. injection H as <- <- <-.
  destruct (slot_write _ _ _ _ _ _ _ _ _ W2 (env_grow _ _ _ _ G2 O1) (Sl h2) D2 WL) as (W3 & G3 & O3).
  split; [done|]. split; [by eapply grow_trans; [|eapply grow_trans]|]. split; [|discriminate].
  exists (((nm, q) :: sc) :: r). auto.
Qed.

Lemma T_step_stmt n : T_expr n -> T_stmt n -> T_stmts n -> T_stmt (S n).
Proof.
  intros KE IH1 IHs P k m G h E s s' G' h' E' fl So Fk Th hG HG NI VF W O HE.
  destruct s as [e|t nm c [e|]|nm c e|e a b|e b|[e|]]; cbn [all_exprs all_decls] in NI, VF.
  - cbn [gen_stmt] in HG. destruct (gen_expr P k m G e) as [[e' i]|] eqn:Ge; [|discriminate]. injection HG as <- <-.
    cbn [exec1] in HE. apply rbind_ok in HE as ([[h1 E1] d1] & H1 & HE). injection HE as <- <- <-.
    destruct (KE _ _ _ _ _ _ _ _ _ _ _ _ So Fk Th Ge NI W O H1) as (W1 & G1 & O1 & _). by apply after_keep.
  - cbn [gen_stmt] in HG. destruct (ty_ok P t); [|discriminate].
    destruct (declare G nm _) as [G1|] eqn:D; [|discriminate].
    destruct (gen_expr P k m G1 e) as [[e' i]|] eqn:Ge; [|discriminate]. destruct (bool_decide _) eqn:B; [|discriminate].
    apply bool_decide_eq_true in B.
    injection HG as <- <-. apply declare_inv in D as (sc & r & -> & ->).
    destruct E as [|a t0]; [by apply Forall2_cons_nil_inv in O|]. cbn [exec1] in HE.
    destruct (assoc nm a); [discriminate|]. unfold var_fresh in VF. apply andb_true_iff in VF as [VF _]. apply negb_true_iff in VF.
    eapply (declaration_typed n P k m sc r h a t0 nm (Ent t c false)); eauto. by apply this_declare.
  - cbn [gen_stmt] in HG. destruct (ty_ok P t); [|discriminate].
    destruct (declare G nm _) as [G1|] eqn:D; [|discriminate]. injection HG as <- <-.
    apply declare_inv in D as (sc & r & -> & ->).
    destruct E as [|a t0]; [by apply Forall2_cons_nil_inv in O|]. cbn [exec1] in HE.
    destruct (assoc nm a); [discriminate|]. injection HE as <- <- <-.
    split; [done|]. split; [apply grow_refl|]. split; [|discriminate]. eexists. split; [|split; [|reflexivity]]; [|reflexivity].
    apply Forall2_cons in O as [O1 O2]. constructor; [|exact O2]. constructor; [|exact O1]. split; [reflexivity|]. apply holds_fresh.
  - cbn [gen_stmt] in HG. destruct (gen_expr P k m G e) as [[e' i]|] eqn:Ge; [|discriminate].
    destruct (i_ty i) as [t|] eqn:Ti; [|discriminate]. destruct (_ && _); [discriminate|].
    destruct (declare G nm _) as [G1|] eqn:D; [|discriminate].
    injection HG as <- <-. apply declare_inv in D as (sc & r & -> & ->).
    destruct E as [|a t0]; [by apply Forall2_cons_nil_inv in O|]. cbn [exec1] in HE.
    destruct (assoc nm a); [discriminate|]. unfold var_fresh in VF. apply andb_true_iff in VF as [VF VM].
    apply negb_true_iff in VF, VM. rewrite <- (gen_weaken P k m sc r nm (Ent t c false) e VM) in Ge.
    eapply (declaration_typed n P k m sc r h a t0 nm (Ent t c false)); eauto. by apply this_declare.
  - rewrite gen_if_eq in HG. destruct (gen_expr P k m G e) as [[e' i]|] eqn:Ge; [|discriminate].
    destruct (gen_stmts P k m ([] :: G) a) as [[a' Ga]|] eqn:GA; [|discriminate].
    destruct (gen_stmts P k m ([] :: G) b) as [[b' Gb]|] eqn:GB; [|discriminate]. injection HG as <- <-.
    apply andb_true_iff in NI as [NI N3]. apply andb_true_iff in NI as [N1 N2]. apply andb_true_iff in VF as [V1 V2].
    cbn [exec1] in HE. apply rbind_ok in HE as ([[h1 E1] d1] & H1 & HE). cbn [fst snd] in HE.
    apply rbind_ok in HE as ([[h2 E2] f2] & H2 & HE). cbn [fst snd] in HE. injection HE as <- <- <-.
    destruct (KE _ _ _ _ _ _ _ _ _ _ _ _ So Fk Th Ge N1 W O H1) as (W1 & G1 & O1 & _).
    assert (O2 : env_ok h1 ([] :: G) ([] :: E1)) by (constructor; [constructor|exact O1]).
    assert (X : exists Gx, after m h1 ([] :: G) Gx h2 E2 f2 P).
    { destruct (negb _).
      - exists Ga. eapply IHs; [exact So|exact Fk|by apply this_block| |exact GA|exact N2|exact V1|exact W1|exact O2|exact H2]. discriminate.
      - exists Gb. eapply IHs; [exact So|exact Fk|by apply this_block| |exact GB|exact N3|exact V2|exact W1|exact O2|exact H2]. discriminate. }
    destruct X as (Gx & W2 & G2 & (G3 & O3 & T3 & _) & D3). apply after_keep; auto; [by eapply grow_trans|].
    cbn [tail] in T3. subst G. destruct O3; [constructor|]. assumption.
  - pose proof HG as HG0. rewrite gen_while_eq in HG. destruct (gen_expr P k m G e) as [[e' i]|] eqn:Ge; [|discriminate].
    destruct (gen_stmts P k m ([] :: G) b) as [[b' Gb]|] eqn:GB; [|discriminate]. injection HG as <- <-.
    apply andb_true_iff in NI as [N1 N2].
    cbn [exec1] in HE. apply rbind_ok in HE as ([[h1 E1] d1] & H1 & HE). cbn [fst snd] in HE.
    destruct (KE _ _ _ _ _ _ _ _ _ _ _ _ So Fk Th Ge N1 W O H1) as (W1 & G1 & O1 & _).
    destruct (_ =? 0).
    { injection HE as <- <- <-. by apply after_keep. }
    apply rbind_ok in HE as ([[h2 E2] f2] & H2 & HE). cbn [fst snd] in HE.
    assert (O2 : env_ok h1 ([] :: G) ([] :: E1)) by (constructor; [constructor|exact O1]).
    assert (X : after m h1 ([] :: G) Gb h2 E2 f2 P).
    { eapply IHs; [exact So|exact Fk|by apply this_block| |exact GB|exact N2|exact VF|exact W1|exact O2|exact H2]. discriminate. }
    destruct X as (W2 & G2 & (G3 & O3 & T3 & _) & D3).
    assert (O4 : env_ok h2 G (tail E2)) by (cbn [tail] in T3; subst G; destruct O3; [constructor|assumption]).
    assert (G4 : grow h h2) by (by eapply grow_trans).
    destruct f2 as [|d].
    + assert (NI' : all_exprs no_new_int (SWhile e b) = true) by (cbn [all_exprs]; by rewrite N1, N2).
      destruct (IH1 _ _ _ _ _ _ _ _ _ _ _ _ So Fk Th hG HG0 NI' VF W2 O4 HE) as (W5 & G5 & O5 & D5).
      split; [done|]. split; [by eapply grow_trans|]. split; done.
    + injection HE as <- <- <-. by apply after_keep.
  - cbn [gen_stmt] in HG. destruct (gen_expr P k m G e) as [[e' i]|] eqn:Ge; [|discriminate]. destruct (_ && _) eqn:A; [|discriminate].
    apply andb_true_iff in A as [A _]. apply bool_decide_eq_true in A.
    injection HG as <- <-. cbn [exec1] in HE. apply rbind_ok in HE as ([[h1 E1] d1] & H1 & HE). cbn [fst snd] in HE. injection HE as <- <- <-.
    destruct (KE _ _ _ _ _ _ _ _ _ _ _ _ So Fk Th Ge NI W O H1) as (W1 & G1 & O1 & D1). apply after_keep; auto.
    intros d t [= <-] Ht. apply result_typed, D1. congruence.
  - cbn [gen_stmt] in HG. destruct (bool_decide _) eqn:B; [|discriminate]. injection HG as <- <-. apply bool_decide_eq_true in B.
    cbn [exec1] in HE. injection HE as <- <- <-. apply after_keep; auto; [apply grow_refl|]. congruence.
Qed.

Lemma T_step_stmts n : T_stmt n -> T_stmts n -> T_stmts (S n).
Proof.
  intros IH1 IHs P k m G h E ss ss' G' h' E' fl So Fk Th hG HG NI VF W O HE. destruct ss as [|s ss]; cbn [gen_stmts] in HG.
  - injection HG as <- <-. cbn [exec] in HE. injection HE as <- <- <-. apply after_keep; auto; [apply grow_refl|discriminate].
  - destruct (gen_stmt P k m G s) as [[s' G1]|] eqn:G1'; [|discriminate].
    destruct (gen_stmts P k m G1 ss) as [[r' G2]|] eqn:G2'; [|discriminate]. injection HG as <- <-.
    cbn [forallb] in NI, VF. apply andb_true_iff in NI as [N1 N2]. apply andb_true_iff in VF as [V1 V2].
    cbn [exec] in HE. apply rbind_ok in HE as ([[h1 E1] f1] & H1 & HE). cbn [fst snd] in HE.
    destruct (IH1 _ _ _ _ _ _ _ _ _ _ _ _ So Fk Th hG G1' N1 V1 W O H1) as (W1 & Gr1 & (G3 & O3 & T3 & Q3) & D1).
    destruct (gen_stmt_grows _ _ _ _ _ _ _ hG G1') as (ns & sc & r & EG & EG1).
    destruct f1 as [|d].
    + rewrite (Q3 eq_refl) in O3.
      assert (hG1 : G1 <> []) by (by rewrite EG1).
      destruct (IHs _ _ _ _ _ _ _ _ _ _ _ _ So Fk (this_stmt _ _ _ _ _ _ _ Th V1 G1') hG1 G2' N2 V2 W1 O3 HE)
        as (W2 & Gr2 & (G4 & O4 & T4 & Q4) & D2).
      split; [done|]. split; [by eapply grow_trans|]. split; [|done]. exists G4. split; [done|]. split; [|done].
      rewrite T4, EG1, EG. reflexivity.
    + injection HE as <- <- <-. split; [done|]. split; [done|]. split; [|done]. exists G3. split; [done|]. split; [done|]. discriminate.
Qed.

Theorem typed_all n : T_expr n /\ T_args n /\ T_call n /\ T_stmt n /\ T_stmts n.
Proof.
  induction n as [|n (IHe & IHa & IHc & IH1 & IHs)].
  - repeat split; repeat intro; discriminate.
  - split; [by apply T_step_expr|]. split; [by apply T_step_args|]. split; [by apply T_step_call|].
    split; [by apply T_step_stmt|by apply T_step_stmts].
Qed.
