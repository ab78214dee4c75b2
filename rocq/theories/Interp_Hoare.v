(** A small program logic for the interpreter: assertions about the current flow and the
    pending exception. Used for the generator's checks (Gen_Proofs). *)
From Coq Require Import Floats.SpecFloat.
From Verif Require Import Base Text_Model Tok_Model TypeTable TypeSys_Model Value_Model Interp_Model Interp_Eqs.

Definition pred := flow -> option obj -> Prop.
Definition on (p : pred) (s : st) : Prop := p (s_flow s) (w_exn (s_world s)).
(** [triple p m q r]: started where [p] holds, [m] can only return a value [a] where [q a]
    holds or raise a flow [f] where [r f] holds of the pending exception. *)
Definition triple {A} (p : pred) (m : M A) (q : A -> pred) (r : pred) : Prop :=
  forall s, on p s ->
    match m s with
    | (Val a, s') => on (q a) s'
    | (Raise f, s') => r f (w_exn (s_world s'))
    | _ => True
    end.

Lemma t_conseq {A} (p p' : pred) (m : M A) (q q' : A -> pred) (r r' : pred) :
  triple p' m q' r' -> (forall f e, p f e -> p' f e) -> (forall a f e, q' a f e -> q a f e) ->
  (forall f e, r' f e -> r f e) -> triple p m q r.
Proof.
  intros H Hp Hq Hr s Hs. specialize (H s (Hp _ _ Hs)). destruct (m s) as [[] s']; unfold on in *; eauto.
Qed.
Lemma t_bind {A B} p (m : M A) (k : A -> M B) (q1 : A -> pred) (q : B -> pred) (r : pred) :
  triple p m q1 r -> (forall a, triple (q1 a) (k a) q r) -> triple p (bind m k) q r.
Proof.
  intros H Hk s Hs. specialize (H s Hs). unfold bind. destruct (m s) as [[] s']; try done. by apply Hk.
Qed.
Lemma t_try {A B} p (m : M A) (d : B) (k : A -> M B) (q1 : A -> pred) (r1 : pred) (q : B -> pred) (r : pred) :
  triple p m q1 r1 -> (forall a, triple (q1 a) (k a) q r) -> (forall f e, r1 f e -> q d f e) ->
  triple p (try_control m d k) q r.
Proof.
  intros H Hk Hd s Hs. specialize (H s Hs). unfold try_control. destruct (m s) as [[] s']; try done.
  - by apply Hk.
  - unfold on in *. cbn. by apply Hd.
Qed.
Lemma t_ret {A} (a : A) (p : pred) (q : A -> pred) (r : pred) : (forall f e, p f e -> q a f e) -> triple p (ret a) q r.
Proof. intros H s Hs. by apply H. Qed.
Lemma t_pre {A} (p p' : pred) (m : M A) (q : A -> pred) (r : pred) : (forall f e, p f e -> p' f e) -> triple p' m q r -> triple p m q r.
Proof. intros Hp H. by eapply t_conseq; [apply H|..]. Qed.
Lemma t_post {A} (p : pred) (m : M A) (q' q : A -> pred) (r : pred) : triple p m q' r -> (forall a f e, q' a f e -> q a f e) -> triple p m q r.
Proof. intros H Hq. by eapply t_conseq; [apply H|..]. Qed.
Lemma t_pure {A} (p : pred) (m : M A) (q : A -> pred) (r : pred) (X : Prop) :
  (forall f e, p f e -> X) -> (X -> triple p m q r) -> triple p m q r.
Proof. intros HX H s Hs. apply H; [|done]. by eapply HX. Qed.

(** ** Primitive operations *)
Definition keeps {A} (m : M A) : Prop := forall p r, triple p m (fun _ => p) r.
Lemma keeps_lookup x : keeps (lookup_var x).
Proof. intros p r s Hs. unfold lookup_var. by destruct (s_frames s). Qed.
Lemma keeps_lvalue x : keeps (lvalue x).
Proof.
  intros p r. unfold lvalue. eapply t_bind; [apply keeps_lookup|]. intros [v|]; [by apply t_ret|by intros s Hs].
Qed.
Lemma keeps_store x o : keeps (store_var x o).
Proof.
  intros p r s Hs. unfold store_var. destruct (s_frames s) as [|f l]; [done|].
  destruct (env_set _ _ _); [done|]. by destruct (sc_get _ _).
Qed.
Lemma keeps_define x o : keeps (define x o).
Proof. intros p r s Hs. unfold define. destruct (s_frames s) as [|[[|sc l] rv] r0]; try done. by destruct (sc_get sc x). Qed.
Lemma keeps_push : keeps push_scope.
Proof. intros p r s Hs. unfold push_scope. by destruct (s_frames s). Qed.
Lemma keeps_pop : keeps pop_scope.
Proof. intros p r s Hs. unfold pop_scope. by destruct (s_frames s) as [|[[|sc l] rv] r0]. Qed.
Lemma keeps_push_frame sc : keeps (push_frame sc).
Proof. by intros p r s Hs. Qed.
Lemma keeps_pop_frame : keeps pop_frame.
Proof. intros p r s Hs. unfold pop_frame. by destruct (s_frames s). Qed.
Lemma keeps_get_ret : keeps get_ret.
Proof. intros p r s Hs. unfold get_ret. by destruct (s_frames s). Qed.
Lemma keeps_set_ret o : keeps (set_ret o).
Proof. intros p r s Hs. unfold set_ret. by destruct (s_frames s). Qed.
Lemma keeps_emit t : keeps (emit t).
Proof. by intros p r s Hs. Qed.
Lemma keeps_lift {A} (x : res A) : keeps (lift x).
Proof. intros p r s Hs. unfold lift. by destruct x. Qed.
Lemma keeps_ret {A} (a : A) : keeps (ret a).
Proof. intros p r. by apply t_ret. Qed.
Lemma keeps_crash {A} e : keeps (@crash A e).
Proof. by intros p r s Hs. Qed.
Lemma keeps_nofuel {A} : keeps (@nofuel A).
Proof. by intros p r s Hs. Qed.
Lemma t_set_flow f' (p : pred) (q : unit -> pred) (r : pred) : (forall f e, p f e -> q tt f' e) -> triple p (set_flow f') q r.
Proof. intros H s Hs. unfold on in *. cbn. eauto. Qed.
Lemma t_get_flow (p r : pred) : triple p get_flow (fun c f e => p f e /\ f = c) r.
Proof. by intros s Hs. Qed.
Lemma t_get_exn (p r : pred) : triple p get_exn (fun x f e => p f e /\ e = x) r.
Proof. by intros s Hs. Qed.
Lemma t_set_exn o (p : pred) (q : unit -> pred) (r : pred) : (forall f e, p f e -> q tt f (Some o)) -> triple p (set_exn o) q r.
Proof. intros H s Hs. unfold on in *. cbn. eauto. Qed.
Lemma t_raise {A} f' (p : pred) (q : A -> pred) (r : pred) : (forall f e, p f e -> r f' e) -> triple p (raise f') q r.
Proof. intros H s Hs. cbn. exact (H _ _ Hs). Qed.
Lemma t_crash {A} e p (q : A -> pred) (r : pred) : triple p (crash e) q r.
Proof. by intros s Hs. Qed.
Lemma t_nofuel {A} p (q : A -> pred) (r : pred) : triple p nofuel q r.
Proof. by intros s Hs. Qed.
(** Running a constructor: see [construct]. *)
Lemma t_construct {A B} (p : pred) (q0 : B -> pred) (m : M B) (upd : st -> st) (o : st -> A) (q : A -> pred) (r r0 : pred) :
  (forall s, on p s -> on p (St (s_frames (upd s)) (s_world (upd s)) (s_flow s))) ->
  (forall s, s_flow (upd s) = FNormal) -> (forall s, w_exn (s_world (upd s)) = w_exn (s_world s)) ->
  (forall f e, p f e -> p FNormal e) -> triple p m q0 r0 -> (forall a b f e, q0 b f e -> q a f e) ->
  triple p (fun s => match m (upd s) with
    | (Val _, s') => (Val (o s), s')
    | (Raise _, s') => (Crash "ControlFlow exception left a constructor", s')
    | (Crash e, s') => (Crash e, s') | (Undef, s') => (Undef, s') | (NoFuel, s') => (NoFuel, s') end) q r.
Proof.
  intros _ Hf He Hp Hm Hq s Hs. assert (on p (upd s)) as Hu.
  { unfold on in *. rewrite Hf, He. eauto. }
  specialize (Hm _ Hu). destruct (m (upd s)) as [[] s']; try done. unfold on in *. eauto.
Qed.
