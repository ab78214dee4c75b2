(** Proofs about frames and scopes (C56). *)
From Verif Require Import Base Base_Proofs Text_Model Frame_Model Frame_Spec.

(** ** The invariant of every reachable thread *)
Definition owned (t : thread) : list N :=
  concat (map (fun f => map ss_scope (List.filter ss_delete (f_scopes f))) (th_frames t)).
Definition finv (t : thread) : Prop :=
  NoDup (owned t) /\ NoDup (th_deleted t) /\ (forall i, i ∈ owned t -> i ∉ th_deleted t /\ (i < th_next t)%N) /\
  (forall i, i ∈ th_deleted t -> (i < th_next t)%N) /\
  Forall (fun f => length (f_tokens f) = 1%nat) (th_frames t).
Definition depths_of (t : thread) : depths := map (fun f => length (f_scopes f)) (th_frames t).

Lemma finv_init n : finv (thread_init n).
Proof. unfold finv, owned; cbn. split_and!; [constructor|constructor|intros i H; by apply elem_of_nil in H|intros i H; by apply elem_of_nil in H|constructor]. Qed.

(** What one step does to a thread in the invariant. *)
Lemma pop_scope_step f fs s ss t : finv t -> th_frames t = f :: fs -> f_scopes f = s :: ss ->
  exists t', frame_pop_scope t = Ok t' /\ finv t' /\ th_frames t' = set_scopes ss f :: fs /\ th_next t' = th_next t /\ th_parents t' = th_parents t /\
    th_deleted t' = (if ss_delete s then [ss_scope s] else []) ++ th_deleted t.
Proof.
  intros (Ho & Hd & Hod & Hlt & Htok) Ef Es. unfold frame_pop_scope. rewrite Ef, Es.
  assert (Eo : owned t = (if ss_delete s then [ss_scope s] else []) ++ map ss_scope (List.filter ss_delete ss) ++ concat (map (fun f => map ss_scope (List.filter ss_delete (f_scopes f))) fs)).
  { unfold owned. rewrite Ef. cbn [map concat]. rewrite Es. cbn [List.filter]. by destruct (ss_delete s). }
  destruct (ss_delete s) eqn:Edel.
  - unfold delete_scope, set_frames. cbn [th_frames th_next th_parents th_deleted].
    rewrite bool_decide_eq_false_2; [|apply Hod; rewrite Eo; left].
    eexists. split; [reflexivity|]. split; [|done]. rewrite Eo in Ho, Hod. cbn [app] in Ho, Hod. apply NoDup_cons in Ho as [Hs Ho].
    unfold finv, owned. cbn [th_frames th_next th_deleted map concat set_scopes f_scopes f_tokens].
    split_and!; [done|constructor; [apply Hod; left|done]| | |rewrite Ef in Htok; apply Forall_cons in Htok as [A B]; by constructor].
    + intros i Hi. split; [|apply Hod; by right]. rewrite not_elem_of_cons. split; [|apply Hod; by right]. intros ->. done.
    + intros i Hi. apply elem_of_cons in Hi as [->|Hi]; [apply Hod; left|by apply Hlt].
  - eexists. split; [reflexivity|]. split; [|done]. rewrite Eo in Ho, Hod. cbn [app] in Ho, Hod.
    unfold finv, owned. cbn [set_frames th_frames th_next th_deleted map concat set_scopes f_scopes f_tokens].
    split_and!; [done|done|done|done|rewrite Ef in Htok; apply Forall_cons in Htok as [A B]; by constructor].
Qed.
Lemma push_frame_step s ts ps t : finv t -> finv (push_frame s ts ps t).
Proof.
  intros (Ho & Hd & Hod & Hlt & Htok). unfold finv, owned, push_frame. cbn. split_and!; try done. by constructor.
Qed.
Lemma pop_frame_step f fs s ss t : finv t -> th_frames t = f :: fs -> f_scopes f = s :: ss ->
  exists t', pop_frame t = Ok t' /\ finv t' /\ th_frames t' = fs /\ th_next t' = th_next t /\ th_parents t' = th_parents t /\
    th_deleted t' = (if ss_delete s then [ss_scope s] else []) ++ th_deleted t.
Proof.
  intros Hi Ef Es. pose proof Hi as (Ho & Hd & Hod & Hlt & Htok). unfold pop_frame. rewrite Ef.
  rewrite Ef in Htok. apply Forall_cons in Htok as [Ht1 Htok]. destruct (f_tokens f) as [|tk tks] eqn:Et; [done|].
  assert (tks = []) as -> by (by destruct tks). unfold frame_pop_scope. cbn [set_frames th_frames f_scopes]. rewrite Es.
  assert (Eo : owned t = (if ss_delete s then [ss_scope s] else []) ++ map ss_scope (List.filter ss_delete ss) ++ concat (map (fun f => map ss_scope (List.filter ss_delete (f_scopes f))) fs)).
  { unfold owned. rewrite Ef. cbn [map concat]. rewrite Es. cbn [List.filter]. by destruct (ss_delete s). }
  destruct (ss_delete s) eqn:Edel.
  - unfold delete_scope, set_frames. cbn [th_frames th_next th_parents th_deleted].
    rewrite bool_decide_eq_false_2; [|apply Hod; rewrite Eo; left]. cbn [rbind].
    eexists. split; [reflexivity|]. split; [|done]. rewrite Eo in Ho, Hod. cbn [app] in Ho, Hod. apply NoDup_cons in Ho as [Hs Ho].
    apply NoDup_app in Ho as (_ & _ & Ho).
    unfold finv, owned. cbn [th_frames th_next th_deleted List.tl].
    split_and!; [done|constructor; [apply Hod; left|done]| | |done].
    + intros i Hin. split; [|apply Hod; right; apply elem_of_app; by right]. rewrite not_elem_of_cons. split; [|apply Hod; right; apply elem_of_app; by right].
      intros ->. apply Hs, elem_of_app. by right.
    + intros i Hin. apply elem_of_cons in Hin as [->|Hin]; [apply Hod; left|by apply Hlt].
  - cbn [rbind]. eexists. split; [reflexivity|]. split; [|done]. rewrite Eo in Ho, Hod. cbn [app] in Ho, Hod. apply NoDup_app in Ho as (_ & _ & Ho).
    unfold finv, owned. cbn [set_frames th_frames th_next th_deleted List.tl].
    split_and!; [done|done| |done|done]. intros i Hin. apply Hod, elem_of_app. by right.
Qed.
Lemma push_given_step f fs s t : finv t -> th_frames t = f :: fs ->
  exists t', push_scope (Some s) t = Ok t' /\ finv t' /\ th_frames t' = set_scopes (SScope s false true :: f_scopes f) f :: fs /\ th_next t' = th_next t /\
    th_parents t' = th_parents t /\ th_deleted t' = th_deleted t.
Proof.
  intros (Ho & Hd & Hod & Hlt & Htok) Ef. unfold push_scope. rewrite Ef. eexists. split; [reflexivity|]. split; [|done].
  unfold finv, owned in *. rewrite Ef in *. cbn in *. split_and!; try done. apply Forall_cons in Htok as [A B]. by constructor.
Qed.
Lemma push_own_step f fs top ss t : finv t -> th_frames t = f :: fs -> f_scopes f = top :: ss ->
  exists t', push_scope None t = Ok t' /\ finv t' /\ th_frames t' = set_scopes (SScope (th_next t) true true :: f_scopes f) f :: fs /\ th_next t' = (th_next t + 1)%N /\
    th_parents t' = (th_next t, ss_scope top) :: th_parents t /\ th_deleted t' = th_deleted t.
Proof.
  intros (Ho & Hd & Hod & Hlt & Htok) Ef Es. unfold push_scope. rewrite Ef, Es. eexists. split; [reflexivity|]. split; [|done].
  assert (Eo : owned t = map ss_scope (List.filter ss_delete (top :: ss)) ++ concat (map (fun f => map ss_scope (List.filter ss_delete (f_scopes f))) fs)).
  { unfold owned. rewrite Ef. cbn [map concat]. by rewrite Es. }
  unfold finv. change (owned (Thread (set_scopes (SScope (th_next t) true true :: top :: ss) f :: fs) (th_next t + 1) ((th_next t, ss_scope top) :: th_parents t) (th_deleted t)))
    with (th_next t :: map ss_scope (List.filter ss_delete (top :: ss)) ++ concat (map (fun f => map ss_scope (List.filter ss_delete (f_scopes f))) fs)).
  rewrite <- Eo. cbn [th_frames th_next th_deleted]. split_and!.
  - constructor; [|done]. intros Hi. apply Hod in Hi as [_ Hi]. lia.
  - done.
  - intros i Hi. apply elem_of_cons in Hi as [->|Hi].
    + split; [|lia]. intros Hi. apply Hlt in Hi. lia.
    + apply Hod in Hi as [? ?]. split; [done|lia].
  - intros i Hi. apply Hlt in Hi. lia.
  - rewrite Ef in Htok. apply Forall_cons in Htok as [A B]. by constructor.
Qed.

Lemma frun_app a b t : frun (a ++ b) t = let! t' := frun a t in frun b t'.
Proof. revert t. induction a as [|o a IH]; intros t; cbn; [done|]. destruct (fstep o t); cbn; [apply IH|done|done|done]. Qed.

(** ** Legal sequences run, others are undefined *)
Lemma legal_runs ds ops ds' : legal ds ops ds' -> forall t, finv t -> depths_of t = ds -> exists t', frun ops t = Ok t' /\ finv t' /\ depths_of t' = ds'.
Proof.
  induction 1 as [|ds s ts ps ops ds' _ IH|d ds ops ds' _ IH|d ds ops ds' _ IH|d ds s ops ds' _ IH|d ds ops ds' _ IH]; intros t Hi Hd; cbn [frun fstep].
  - eauto.
  - cbn [rbind]. apply IH; [by apply push_frame_step|]. unfold depths_of, push_frame in *. cbn. by rewrite Hd.
  - unfold depths_of in Hd. destruct (th_frames t) as [|f fs] eqn:Ef; [done|]. injection Hd as Hl Hd. destruct (f_scopes f) as [|s ss] eqn:Es; [done|].
    destruct (pop_frame_step f fs s ss t Hi Ef Es) as (t' & -> & Hi' & Ef' & _). cbn [rbind]. apply IH; [done|]. unfold depths_of. by rewrite Ef'.
  - unfold depths_of in Hd. destruct (th_frames t) as [|f fs] eqn:Ef; [done|]. injection Hd as Hl Hd. destruct (f_scopes f) as [|s ss] eqn:Es; [done|].
    destruct (push_own_step f fs s ss t Hi Ef Es) as (t' & -> & Hi' & Ef' & _). cbn [rbind]. apply IH; [done|]. unfold depths_of. rewrite Ef'. cbn [map set_scopes f_scopes length]. rewrite Es. cbn [length] in *. by rewrite Hl, Hd.
  - unfold depths_of in Hd. destruct (th_frames t) as [|f fs] eqn:Ef; [done|]. injection Hd as Hl Hd.
    destruct (push_given_step f fs s t Hi Ef) as (t' & -> & Hi' & Ef' & _). cbn [rbind]. apply IH; [done|]. unfold depths_of. rewrite Ef'. cbn [map set_scopes f_scopes length]. by rewrite Hl, Hd.
  - unfold depths_of in Hd. destruct (th_frames t) as [|f fs] eqn:Ef; [done|]. injection Hd as Hl Hd. destruct (f_scopes f) as [|s ss] eqn:Es; [done|].
    destruct (pop_scope_step f fs s ss t Hi Ef Es) as (t' & -> & Hi' & Ef' & _). cbn [rbind]. apply IH; [done|]. unfold depths_of. rewrite Ef'. cbn [map set_scopes f_scopes]. cbn [length] in Hl. injection Hl as ->. by rewrite Hd.
Qed.
Lemma run_legal ops : forall t, finv t -> (exists t', frun ops t = Ok t' /\ legal (depths_of t) ops (depths_of t')) \/ frun ops t = UB.
Proof.
  induction ops as [|o ops IH]; intros t Hi; cbn [frun].
  - left. exists t. split; [done|constructor].
  - destruct o as [s ts ps| |[s|]|]; cbn [fstep].
    + cbn [rbind]. destruct (IH (push_frame s ts ps t) (push_frame_step _ _ _ _ Hi)) as [(t' & -> & Hl)| -> ]; [left|by right].
      exists t'. split; [done|]. constructor. exact Hl.
    + destruct (th_frames t) as [|f fs] eqn:Ef; [right; unfold pop_frame; by rewrite Ef|].
      destruct (f_scopes f) as [|s ss] eqn:Es.
      { right. unfold pop_frame. rewrite Ef. destruct Hi as (_ & _ & _ & _ & Ht). rewrite Ef in Ht. apply Forall_cons in Ht as [Ht _].
        destruct (f_tokens f); [done|]. unfold frame_pop_scope. cbn. by rewrite Es. }
      destruct (pop_frame_step f fs s ss t Hi Ef Es) as (t1 & -> & Hi' & Ef' & _). cbn [rbind].
      destruct (IH t1 Hi') as [(t' & -> & Hl)| -> ]; [left|by right]. exists t'. split; [done|]. unfold depths_of at 1. rewrite Ef. cbn [map]. rewrite Es. cbn [length].
      constructor. unfold depths_of at 1 in Hl. by rewrite Ef' in Hl.
    + destruct (th_frames t) as [|f fs] eqn:Ef; [right; unfold push_scope; by rewrite Ef|].
      destruct (push_given_step f fs s t Hi Ef) as (t1 & -> & Hi' & Ef' & _). cbn [rbind].
      destruct (IH t1 Hi') as [(t' & -> & Hl)| -> ]; [left|by right]. exists t'. split; [done|]. unfold depths_of at 1. rewrite Ef. cbn [map].
      constructor. unfold depths_of at 1 in Hl. by rewrite Ef' in Hl.
    + destruct (th_frames t) as [|f fs] eqn:Ef; [right; unfold push_scope; by rewrite Ef|].
      destruct (f_scopes f) as [|s ss] eqn:Es; [right; unfold push_scope; by rewrite Ef, Es|].
      destruct (push_own_step f fs s ss t Hi Ef Es) as (t1 & -> & Hi' & Ef' & _). cbn [rbind].
      destruct (IH t1 Hi') as [(t' & -> & Hl)| -> ]; [left|by right]. exists t'. split; [done|]. unfold depths_of at 1. rewrite Ef. cbn [map]. rewrite Es. cbn [length].
      constructor. unfold depths_of at 1 in Hl. rewrite Ef' in Hl. cbn [map set_scopes f_scopes length] in Hl. by rewrite Es in Hl.
    + destruct (th_frames t) as [|f fs] eqn:Ef; [right; unfold frame_pop_scope; by rewrite Ef|].
      destruct (f_scopes f) as [|s ss] eqn:Es; [right; unfold frame_pop_scope; by rewrite Ef, Es|].
      destruct (pop_scope_step f fs s ss t Hi Ef Es) as (t1 & -> & Hi' & Ef' & _). cbn [rbind].
      destruct (IH t1 Hi') as [(t' & -> & Hl)| -> ]; [left|by right]. exists t'. split; [done|]. unfold depths_of at 1. rewrite Ef. cbn [map]. rewrite Es. cbn [length].
      constructor. unfold depths_of at 1 in Hl. by rewrite Ef' in Hl.
Qed.
Lemma frun_finv ops : forall t t', finv t -> frun ops t = Ok t' -> finv t'.
Proof.
  intros t t' Hi H. destruct (run_legal ops t Hi) as [(t2 & E & Hl)|E]; [|congruence]. rewrite H in E. injection E as <-.
  destruct (legal_runs _ _ _ Hl t Hi eq_refl) as (t3 & E & Hi' & _). rewrite H in E. by injection E as <-.
Qed.
Lemma set_scopes_same f : set_scopes (f_scopes f) f = f.
Proof. by destruct f. Qed.
Lemma set_scopes_twice a b f : set_scopes a (set_scopes b f) = set_scopes a f.
Proof. done. Qed.

(** Balanced sequences restore the frames, and delete exactly the scopes made meanwhile. *)
Lemma balanced_restores ops : balanced ops -> forall t, finv t -> (exists f fs s ss, th_frames t = f :: fs /\ f_scopes f = s :: ss) ->
  exists t', frun ops t = Ok t' /\ finv t' /\ th_frames t' = th_frames t /\ (th_next t <= th_next t')%N /\
    forall i, i ∈ th_deleted t' <-> i ∈ th_deleted t \/ (th_next t <= i < th_next t')%N.
Proof.
  induction 1 as [|sc inner rest _ IHi _ IHr|sc ts ps inner rest _ IHi _ IHr]; intros t Hi (f & fs & s & ss & Ef & Es).
  - exists t. cbn. split_and!; try done. intros i. split; [tauto|]. intros [H|H]; [done|lia].
  - assert (exists t1 e, fstep (PushScope sc) t = Ok t1 /\ finv t1 /\ th_frames t1 = set_scopes (e :: f_scopes f) f :: fs /\ th_deleted t1 = th_deleted t /\
      (ss_delete e = true /\ ss_scope e = th_next t /\ th_next t1 = th_next t + 1 \/ ss_delete e = false /\ th_next t1 = th_next t)%N) as (t1 & e & E1 & Hi1 & Ef1 & Ed1 & He).
    { destruct sc as [sc|].
      - destruct (push_given_step f fs sc t Hi Ef) as (t1 & E & Hi1 & Ef1 & En & _ & Ed). eexists t1, _. split_and!; try done. right. done.
      - destruct (push_own_step f fs s ss t Hi Ef Es) as (t1 & E & Hi1 & Ef1 & En & _ & Ed). eexists t1, _. split_and!; try done. left. done. }
    change (PushScope sc :: inner ++ PopScope :: rest) with ([PushScope sc] ++ inner ++ [PopScope] ++ rest). rewrite frun_app. cbn [frun]. rewrite E1. cbn [rbind].
    rewrite frun_app. destruct (IHi t1 Hi1) as (t2 & -> & Hi2 & Ef2 & Hn2 & Hd2).
    { rewrite Ef1. by eexists _, _, _, _. }
    cbn [rbind]. rewrite frun_app. cbn [frun fstep]. rewrite Ef1 in Ef2.
    destruct (pop_scope_step _ _ e (f_scopes f) t2 Hi2 Ef2 eq_refl) as (t3 & -> & Hi3 & Ef3 & Hn3 & _ & Ed3). cbn [rbind].
    rewrite set_scopes_twice, set_scopes_same in Ef3.
    destruct (IHr t3 Hi3) as (t4 & -> & Hi4 & Ef4 & Hn4 & Hd4).
    { rewrite Ef3. by exists f, fs, s, ss. }
    exists t4. split_and!; try done; [by rewrite Ef4, Ef3, Ef|lia|].
    intros i. rewrite Hd4, Ed3. destruct He as [(-> & -> & En1)|(-> & En1)]; rewrite ?elem_of_app, ?elem_of_list_singleton, Hd2, Ed1.
    + split; [intros [[H|[H|H]]|H]; [right; subst; lia|by left|right; lia|right; lia]|].
      intros [H|H]; [tauto|]. destruct (decide (i = th_next t)); [by left; left|]. destruct (decide (i < th_next t3)%N); [left; right; right; lia|right; lia].
    + cbn [app]. rewrite elem_of_nil. split; [intros [[[]|[H|H]]|H]; [by left|right; lia|right; lia]|].
      intros [H|H]; [tauto|]. destruct (decide (i < th_next t3)%N); [left; right; right; lia|right; lia].
  - pose proof (push_frame_step sc ts ps t Hi) as Hi1.
    change (PushFrame sc ts ps :: inner ++ PopFrame :: rest) with ([PushFrame sc ts ps] ++ inner ++ [PopFrame] ++ rest). rewrite frun_app. cbn [frun fstep rbind].
    rewrite frun_app. destruct (IHi _ Hi1) as (t2 & -> & Hi2 & Ef2 & Hn2 & Hd2).
    { by eexists _, _, _, _. }
    cbn [rbind]. rewrite frun_app. cbn [frun fstep].
    destruct (pop_frame_step _ _ _ _ t2 Hi2 Ef2 eq_refl) as (t3 & -> & Hi3 & Ef3 & Hn3 & _ & Ed3). cbn [rbind].
    destruct (IHr t3 Hi3) as (t4 & -> & Hi4 & Ef4 & Hn4 & Hd4).
    { rewrite Ef3. by exists f, fs, s, ss. }
    cbn [ss_delete app] in Ed3. change (th_next (push_frame sc ts ps t)) with (th_next t) in *. change (th_deleted (push_frame sc ts ps t)) with (th_deleted t) in *.
    exists t4. split_and!; try done; [by rewrite Ef4, Ef3|lia|].
    intros i. rewrite Hd4, Ed3, Hd2. split; [intros [[H|H]|H]; [by left|right; lia|right; lia]|].
    intros [H|H]; [tauto|]. destruct (decide (i < th_next t3)%N); [left; right; lia|right; lia].
Qed.

(** Within a frame the frames below stay as they are. *)
Lemma within_keeps d ops d' : within d ops d' -> forall t f fs, finv t -> th_frames t = f :: fs -> length (f_scopes f) = d ->
  exists t' f', frun ops t = Ok t' /\ finv t' /\ th_frames t' = f' :: fs /\ length (f_scopes f') = d' /\
    f_level f' = f_level f /\ f_params f' = f_params f /\ f_scope f' = f_scope f /\ f_tokens f' = f_tokens f.
Proof.
  induction 1 as [d|d d' sc ops _ IH|d d' ops _ IH|d d' e sc ts ps inner rest _ IHi _ IHr]; intros t f fs Hi Ef Hd; cbn [frun fstep].
  - exists t, f. done.
  - destruct (f_scopes f) as [|s ss] eqn:Es; [done|].
    assert (exists t1 e, push_scope sc t = Ok t1 /\ finv t1 /\ th_frames t1 = set_scopes (e :: f_scopes f) f :: fs) as (t1 & e & -> & Hi1 & Ef1).
    { destruct sc as [sc|].
      - destruct (push_given_step f fs sc t Hi Ef) as (t1 & E & Hi1 & Ef1 & En & _ & Ed). eexists t1, _. done.
      - destruct (push_own_step f fs s ss t Hi Ef Es) as (t1 & E & Hi1 & Ef1 & En & _ & Ed). eexists t1, _. done. }
    cbn [rbind]. destruct (IH t1 _ fs Hi1 Ef1) as (t' & f' & -> & H); [cbn; rewrite Es; cbn in *; lia|]. exists t', f'. done.
  - destruct (f_scopes f) as [|s ss] eqn:Es; [done|]. destruct (pop_scope_step f fs s ss t Hi Ef Es) as (t1 & -> & Hi1 & Ef1 & _).
    cbn [rbind]. destruct (IH t1 _ fs Hi1 Ef1) as (t' & f' & -> & H); [cbn in *; lia|]. exists t', f'. done.
  - pose proof (push_frame_step sc ts ps t Hi) as Hi1. cbn [rbind]. rewrite frun_app.
    destruct (IHi _ _ _ Hi1 eq_refl eq_refl) as (t2 & f2 & -> & Hi2 & Ef2 & Hl2 & _). cbn [rbind frun fstep].
    destruct (f_scopes f2) as [|s2 ss2] eqn:Es2; [done|]. destruct (pop_frame_step _ _ _ _ t2 Hi2 Ef2 Es2) as (t3 & -> & Hi3 & Ef3 & _). cbn [rbind].
    rewrite Ef in Ef3. by apply (IHr t3 f fs).
Qed.

(** Levels count the frames. *)
Definition levels_ok (fs : list frame) : Prop := forall i f, reverse fs !! i = Some f -> f_level f = N.of_nat i.
Lemma levels_tl f fs : levels_ok (f :: fs) -> levels_ok fs.
Proof. intros H i g Hg. apply H. rewrite reverse_cons. by apply lookup_app_l_Some. Qed.
Lemma levels_same f g fs : f_level f = f_level g -> levels_ok (f :: fs) -> levels_ok (g :: fs).
Proof.
  intros E H i x Hx. rewrite reverse_cons in Hx. apply lookup_app_Some in Hx as [Hx|[Hl Hx]].
  - apply H. rewrite reverse_cons. by apply lookup_app_l_Some.
  - apply list_lookup_singleton_Some in Hx as [Hz <-]. rewrite <- E. apply H. rewrite reverse_cons. rewrite lookup_app_r by done. by rewrite Hz.
Qed.
Lemma levels_step o t t' : levels_ok (th_frames t) -> fstep o t = Ok t' -> levels_ok (th_frames t').
Proof.
  intros H. destruct o as [s ts ps| |[s|]|]; cbn [fstep].
  - intros [= <-]. cbn. intros i x Hx. rewrite reverse_cons in Hx. apply lookup_app_Some in Hx as [Hx|[Hl Hx]]; [by apply H|].
    apply list_lookup_singleton_Some in Hx as [Hz <-]. cbn. rewrite reverse_length in Hl, Hz. f_equal. lia.
  - unfold pop_frame. destruct (th_frames t) as [|f fs]; [done|]. destruct (f_tokens f); [done|]. unfold frame_pop_scope. cbn.
    destruct (f_scopes f); [done|]. destruct (ss_delete _); cbn.
    + unfold delete_scope. case_bool_decide; [done|]. intros [= <-]. cbn. by eapply levels_tl.
    + intros [= <-]. cbn. by eapply levels_tl.
  - unfold push_scope. destruct (th_frames t) as [|f fs]; [done|]. intros [= <-]. cbn. by apply (levels_same f).
  - unfold push_scope. destruct (th_frames t) as [|f fs]; [done|]. destruct (f_scopes f); [done|]. intros [= <-]. cbn. by apply (levels_same f).
  - unfold frame_pop_scope. destruct (th_frames t) as [|f fs]; [done|]. destruct (f_scopes f); [done|]. destruct (ss_delete _).
    + unfold delete_scope. case_bool_decide; [done|]. intros [= <-]. cbn. by apply (levels_same f).
    + intros [= <-]. cbn. by apply (levels_same f).
Qed.
Lemma levels_run ops : forall t t', levels_ok (th_frames t) -> frun ops t = Ok t' -> levels_ok (th_frames t').
Proof.
  induction ops as [|o ops IH]; intros t t' H; cbn [frun]; [by intros [= <-]|].
  destruct (fstep o t) as [t1| | |] eqn:E; cbn [rbind]; try done. apply IH. by eapply levels_step.
Qed.

(** ** Break and continue *)
Fixpoint sums (open : list bool) : list bool := match open with [] => [false] | _ :: o => existsb id open :: sums o end.
Lemma sums_head open : exists r, sums open = existsb id open :: r.
Proof. destruct open; cbn [sums]; eauto. Qed.
Lemma grun_requests ops : forall open, grun ops (sums open) = match open_requests ops open with Some rs => Ok (sums rs) | None => grun ops (sums open) end.
Proof.
  induction ops as [|[b|] ops IH]; intros open; cbn [open_requests grun]; [done| |].
  - destruct (sums_head open) as [r E]. destruct (open_requests ops (b :: open)) eqn:Er; [|done]. rewrite E. cbn [gen_push rbind].
    specialize (IH (b :: open)). rewrite Er in IH. rewrite <- IH. cbn [sums existsb id]. by rewrite E.
  - destruct open as [|b open]; [done|]. destruct (open_requests ops open) eqn:Er; [|done]. cbn [sums gen_pop rbind]. specialize (IH open). by rewrite Er in IH.
Qed.

(** ** Threads *)
Definition tinv (s : threads) : Prop :=
  map fst (ts_map s) = reverse (map N.of_nat (seq 0 (length (ts_map s)))).
Lemma tinv_create s : tinv s -> tinv (create_thread s).1 /\ (ts_map (create_thread s).1 = (N.of_nat (length (ts_map s)), ts_made s) :: ts_map s).
Proof.
  intros H. unfold create_thread. cbn [fst]. rewrite bool_decide_eq_false_2.
  - split; [|done]. unfold tinv in *. cbn [ts_map map fst length]. rewrite seq_S, map_app, reverse_app. cbn. by rewrite H.
  - rewrite H. rewrite elem_of_reverse, elem_of_list_fmap. intros (k & Hk & Hin). apply elem_of_seq in Hin. lia.
Qed.
