(** The application server: theorems of property C73. *)
From Verif Require Import Base Base_Proofs Text_Model Args_Model App_Model App_Spec App_Proofs.

(** ** One request *)
(** A request for a service runs the entry point of this service, once, in an environment that holds exactly what it should
    see of the request; what the program prints is the answer, also if an exception ends it. *)
Theorem C73_service {Mem Disk} program c l (p : process Mem) (d : Disk) path entry :
  well_formed l -> complete l -> NoDup (map fst (s_services c)) ->
  says l ($"PATH_INFO") path -> served_by (s_services c) (s_default c) path entry ->
  exists e, (forall n v, e n = v <-> sees (p_env p) l n v) /\
    forall out how after d', program entry e (p_mem p) d = (out, how, after, d') ->
      exists p', child program c (wire l) p d = (match how with Crashed => Died | _ => Text out end, p', d').
Proof.
  intros W C ND S B. destruct (prepared l (p_env p) W) as (e & P & E).
  { intros n H. apply C. by right. }
  exists e. split; [exact E|]. intros out how (e1, m1) d' R.
  assert (G : get_parameter ($"PATH_INFO") (wire l) = Some path).
  { apply get_says; [done| |done]. apply handed_plain. apply (bool_decide_unpack _). vm_compute. exact I. }
  unfold child. rewrite G. assert (F : match path with [] => s_default c | _ => find_service (s_services c) path end = Some entry).
  { inversion B as [path' entry' N I|entry' D]; subst; [|done]. destruct path; [done|]. by apply find_service_some. }
  destruct path as [|a path]; cbv zeta; rewrite F; unfold handle_request; rewrite P, R; destruct how; eexists; reflexivity.
Qed.
(** An example: two services and a default; the entry points are names of variables, whose values are printed. *)
Definition echo (entry : str) (e : env) (m : list str) (d : list str) : str * ending * (env * list str) * list str :=
  (match e entry with Some v => v | None => $"none" end, match e ($"HTTP_COOKIE") with Some (_ :: _) => Raised | _ => Finished end,
   (env_set entry ($"changed") e, entry :: m), d).
Definition ex_config : settings := Settings [($"/q", $"QUERY_STRING"); ($"/home", $"HOME")] (Some ($"REQUEST_METHOD")).
Definition ex_own : env := fun n => if str_eqb n ($"HOME") then Some ($"/srv") else None.
Definition ex_server : process (list str) := Process ex_own [].
Definition ex_request (path : str) : said :=
  [($"REQUEST_METHOD", $"GET"); ($"PATH_INFO", path); ($"QUERY_STRING", $"a=b"); ($"REQUEST_URI", $"/x"); ($"HOME", $"/tmp")].
Lemma ex_well_formed path : well_formed (ex_request path).
Proof. repeat (apply Forall_cons; split; [cbn [fst]; apply (bool_decide_unpack _); vm_compute; exact I|]). constructor. Qed.
Lemma ex_says path : says (ex_request path) ($"PATH_INFO") path.
Proof. apply says_later; [done|constructor]. Qed.
Lemma ex_complete path : complete (ex_request path).
Proof.
  intros n H. in_cases H; eexists; repeat (first [apply says_first|apply says_later; [done|]]).
Qed.
Example C73_service_ex :
  well_formed (ex_request ($"/q")) /\ complete (ex_request ($"/q")) /\ NoDup (map fst (s_services ex_config)) /\
  served_by (s_services ex_config) (s_default ex_config) ($"/q") ($"QUERY_STRING") /\
  (child echo ex_config (wire (ex_request ($"/q"))) ex_server []).1.1 = Text ($"a=b") /\
  (child echo ex_config (wire (ex_request ($"/home"))) ex_server []).1.1 = Text ($"/srv") /\
  (child echo ex_config (wire (ex_request [])) ex_server []).1.1 = Text ($"GET").
Proof.
  split; [apply ex_well_formed|]. split; [apply ex_complete|]. split; [apply (bool_decide_unpack _); vm_compute; exact I|].
  split; [by apply served_service; [|left]|]. repeat split; vm_compute; reflexivity.
Qed.
Print Assumptions C73_service.

(** A request no service is for is told so, and no program is run for it. *)
Theorem C73_not_found {Mem Disk} program c l (p : process Mem) (d : Disk) path :
  well_formed l -> says l ($"PATH_INFO") path -> unserved (s_services c) (s_default c) path ->
  child program c (wire l) p d = (Text says_404, p, d).
Proof.
  intros W S U. assert (G : get_parameter ($"PATH_INFO") (wire l) = Some path).
  { apply get_says; [done| |done]. apply handed_plain. apply (bool_decide_unpack _). vm_compute. exact I. }
  unfold child. rewrite G. destruct path as [|a path]; cbv zeta.
  - destruct (s_default c) as [entry|] eqn:D; [|done]. destruct (U entry). by constructor.
  - destruct (find_service (s_services c) (a :: path)) as [entry|] eqn:F; [|done]. destruct (U entry). constructor; [done|].
    clear U. induction (s_services c) as [|(n, x) r IH]; [done|]. cbn [find_service] in F. unfold str_eqb in F. case_bool_decide as E.
    + injection F as ->. subst n. by left.
    + right. by apply IH.
Qed.
Example C73_not_found_ex :
  unserved (s_services ex_config) (s_default ex_config) ($"/q/") /\ child echo ex_config (wire (ex_request ($"/q/"))) ex_server [$"f"] = (Text says_404, ex_server, [$"f"]).
Proof.
  assert (U : unserved (s_services ex_config) (s_default ex_config) ($"/q/")).
  { intros entry H. inversion H as [path' entry' N I|]; subst. repeat (apply elem_of_cons in I as [I|I]; [discriminate I|]). inversion I. }
  split; [exact U|]. apply (C73_not_found echo ex_config _ ex_server _ ($"/q/")); [apply ex_well_formed|apply ex_says|exact U].
Qed.
Print Assumptions C73_not_found.

(** A request that does not say its path is not answered at all, and nothing is run for it. *)
Theorem C73_no_path {Mem Disk} program c l (p : process Mem) (d : Disk) :
  well_formed l -> silent_on l ($"PATH_INFO") -> child program c (wire l) p d = (Died, p, d).
Proof.
  intros W S. assert (G : get_parameter ($"PATH_INFO") (wire l) = None).
  { apply get_silent; [done| |done]. apply handed_plain. apply (bool_decide_unpack _). vm_compute. exact I. }
  unfold child. by rewrite G.
Qed.
Example C73_no_path_ex : well_formed [($"PATH_INFOS", $"/q")] /\ silent_on [($"PATH_INFOS", $"/q")] ($"PATH_INFO").
Proof. split; [repeat constructor|]; apply (bool_decide_unpack (~ _)); vm_compute; exact I. Qed.
Print Assumptions C73_no_path.

(** ** Many requests *)
(** The server is the same after any history of requests, whatever the programs do to their memory and their environment. *)
Theorem C73_server_unchanged {Mem Disk} program c l (p : process Mem) (d : Disk) : (exec program c l p d).1.2 = p.
Proof. apply exec_process. Qed.
(** So the answer to a request only depends on what came before through the files; a request for which no process can be
    created gets no answer and changes nothing. *)
Theorem C73_history {Mem Disk} program c before q after (p : process Mem) (d : Disk) rs d1 rs' d' :
  exec program c before p d = (rs, p, d1) -> exec program c after p (child program c q p d1).2 = (rs', p, d') ->
  exec program c (before ++ (q, true) :: after) p d = (rs ++ (child program c q p d1).1.1 :: rs', p, d').
Proof.
  intros A B. rewrite exec_app, A. cbn [exec]. destruct (child program c q p d1) as ((r, p1), d2). cbn [fst snd] in B |- *. by rewrite B.
Qed.
Theorem C73_no_process {Mem Disk} program c before q after (p : process Mem) (d : Disk) rs d1 rs' d' :
  exec program c before p d = (rs, p, d1) -> exec program c after p d1 = (rs', p, d') ->
  exec program c (before ++ (q, false) :: after) p d = (rs ++ Dropped :: rs', p, d').
Proof. intros A B. rewrite exec_app, A. cbn [exec]. by rewrite B. Qed.
(** Programs that leave the files alone answer every request as if it were the only one. *)
Theorem C73_independent {Mem Disk} program c l (p : process Mem) (d : Disk) :
  (forall entry e m d, (program entry e m d).2 = d) ->
  exec program c l p d = (map (fun qb => if qb.2 : bool then (child program c qb.1 p d).1.1 else Dropped) l, p, d).
Proof.
  intros N. assert (K : forall q, (child program c q p d).2 = d).
  { intros q. unfold child. destruct (get_parameter _ q) as [path|]; [|done]. cbv zeta. destruct (match path with [] => _ | _ => _ end) as [entry|]; [|done].
    unfold handle_request. destruct (prepare variables q (p_env p)) as [e| | |]; [|done..]. specialize (N entry e (p_mem p) d).
    destruct (program entry e (p_mem p) d) as (((out, how), (e1, m1)), d1). cbn [snd] in N. subst d1. by destruct how. }
  induction l as [|(q, b) l IH]; [done|]. cbn [exec map fst snd]. destruct b; [|by rewrite IH]. specialize (K q).
  destruct (child program c q p d) as ((r, p1), d1). cbn [snd] in K. subst d1. by rewrite IH.
Qed.
Example C73_history_ex :
  (forall entry e m d, (echo entry e m d).2 = d) /\
  (exec echo ex_config [(wire (ex_request ($"/home")), true); ([], true); (wire (ex_request ($"/q")), false); (wire (ex_request ($"/home")), true)] ex_server []).1.1
  = [Text ($"/srv"); Died; Dropped; Text ($"/srv")].
Proof. split; [done|]. vm_compute. reflexivity. Qed.
Print Assumptions C73_server_unchanged.
Print Assumptions C73_history.
Print Assumptions C73_no_process.
Print Assumptions C73_independent.

(** ** What goes wrong *)
(** A request for a service that does not say a query (or a method, or its address) ends the process, without an answer:
    the null pointer is passed to setenv. *)
Theorem C73_unanswered_refuted : ~ (forall l entry, well_formed l -> says l ($"PATH_INFO") ($"/q") -> served_by (s_services ex_config) (s_default ex_config) ($"/q") entry ->
  exists out, (child echo ex_config (wire l) ex_server []).1.1 = Text out).
Proof.
  intros H. destruct (H [($"PATH_INFO", $"/q")] ($"QUERY_STRING")) as (out & E).
  - apply Forall_cons. split; [|constructor]. apply (bool_decide_unpack _). vm_compute. exact I.
  - constructor.
  - by apply served_service; [|left].
  - vm_compute in E. discriminate E.
Qed.
Print Assumptions C73_unanswered_refuted.
(** Not everything a request says is seen: the length of its content, for one. *)
Theorem C73_unseen_refuted : ~ (forall l n v, well_formed l -> complete l -> says l ($"PATH_INFO") [] -> says l n v ->
  (child echo (Settings [] (Some n)) (wire l) ex_server []).1.1 = Text v).
Proof.
  intros H. specialize (H (($"CONTENT_LENGTH", $"5") :: ex_request []) ($"CONTENT_LENGTH") ($"5")).
  assert (W : well_formed (($"CONTENT_LENGTH", $"5") :: ex_request [])).
  { apply Forall_cons. split; [|apply ex_well_formed]. apply (bool_decide_unpack _). vm_compute. exact I. }
  assert (C : complete (($"CONTENT_LENGTH", $"5") :: ex_request [])).
  { intros n Hn. destruct (ex_complete [] n Hn) as (v & S). exists v. apply says_later; [|exact S]. intros <-. revert Hn. apply (bool_decide_unpack (~ _)). vm_compute. exact I. }
  assert (P : says (($"CONTENT_LENGTH", $"5") :: ex_request []) ($"PATH_INFO") []) by (apply says_later; [discriminate|apply ex_says]).
  specialize (H W C P (says_first _ _ _)). vm_compute in H. discriminate H.
Qed.
Print Assumptions C73_unseen_refuted.
(** What a request does not say is taken from the server: a cookie of the environment the server was started in is seen with
    every request that has none. *)
Theorem C73_foreign_refuted : ~ (forall (p : process (list str)) l n v, n ∈ handed_over -> well_formed l -> complete l -> says l ($"PATH_INFO") [] -> v <> [] ->
  (child echo (Settings [] (Some n)) (wire l) p []).1.1 = Text v -> says l n v).
Proof.
  intros H. specialize (H (Process (fun n => if str_eqb n ($"HTTP_COOKIE") then Some ($"admin") else None) []) (ex_request []) ($"HTTP_COOKIE") ($"admin")).
  assert (Hi : $"HTTP_COOKIE" ∈ handed_over) by (right; by left).
  assert (N : $"admin" <> []) by discriminate. specialize (H Hi (ex_well_formed []) (ex_complete []) (ex_says []) N). assert (E : says (ex_request []) ($"HTTP_COOKIE") ($"admin")) by (apply H; vm_compute; reflexivity).
  apply silent_says in E; [exact E|]. apply (bool_decide_unpack (~ _)). vm_compute. exact I.
Qed.
Print Assumptions C73_foreign_refuted.
(** A service whose name is the empty text is never asked. *)
Theorem C73_empty_name_refuted : ~ (forall c entry, NoDup (map fst (s_services c)) -> ([], entry) ∈ s_services c ->
  (child echo c (wire (ex_request [])) ex_server []).1.1 <> Text says_404).
Proof.
  intros H. apply (H (Settings [([], $"QUERY_STRING")] None) ($"QUERY_STRING")).
  - apply (bool_decide_unpack _). vm_compute. exact I.
  - by left.
  - vm_compute. reflexivity.
Qed.
Print Assumptions C73_empty_name_refuted.

(** ** The command line *)
(** As for the interpreter (C69): nothing behind the script is an option of the server. *)
Theorem C73_arguments opts ds d v named f args libs : app_options opts ds d v -> app_named named f ->
  app_parameters (opts ++ named ++ args) (OptionsSet [] libs false false) =
    Start (OptionsSet f (libs ++ ds) d v) (Z.of_nat (S (length args))) (f ++ concat (map (cons (chr 10)) args)).
Proof. intros A N. rewrite (app_start opts ds d v named f args) by done. cbn [o_libs o_debug o_verbose]. by rewrite !orb_false_r. Qed.
Example C73_arguments_ex :
  app_options [$"-v"; $"-l"; $"--version"] [$"--version"] false true /\ app_named [$"s.os"] ($"s.os") /\
  app_parameters [$"-v"; $"-l"; $"--version"; $"s.os"; $"--help"] (OptionsSet [] [] false false) =
    Start (OptionsSet ($"s.os") [$"--version"] false true) 2 ($"s.os" ++ [chr 10] ++ $"--help").
Proof.
  split; [eapply app_verbose; [by left|apply app_library; [by left|constructor]]|].
  split; [apply app_alone; apply (bool_decide_unpack _); vm_compute; exact I|]. vm_compute. reflexivity.
Qed.
Print Assumptions C73_arguments.
(** An option whose value is missing at the end is refused. *)
Theorem C73_missing_value opts ds d v w o : app_options opts ds d v -> w ∈ [$"-f"; $"--file"; $"-l"; $"--library"] -> app_parameters (opts ++ [w]) o = Refused.
Proof. intros A I. rewrite (app_skip opts ds d v [w] o A). in_cases I; reflexivity. Qed.
Example C73_missing_value_ex : app_options [$"--debug"] [] true false /\ app_parameters [$"--debug"; $"-f"] (OptionsSet [] [] false false) = Refused.
Proof. split; [eapply app_debug, app_none|vm_compute; reflexivity]. Qed.
Print Assumptions C73_missing_value.
Theorem C73_no_start opts ds d v s rest o : app_options opts ds d v -> s ∈ app_stops -> forall o' n t, app_parameters (opts ++ s :: rest) o <> Start o' n t.
Proof. intros A I o' n t E. destruct (app_stopped opts ds d v s rest o A I) as [F|F]; rewrite F in E; discriminate E. Qed.
Example C73_no_start_ex : app_parameters [$"--debug"; $"--version"; $"s.os"] (OptionsSet [] [] false false) = ShowVersion.
Proof. vm_compute. reflexivity. Qed.
Print Assumptions C73_no_start.
