(** * Specification vocabulary for the HTTP properties *)

From Coq Require Import Ascii String.
From Coq Require Import List ZArith Bool.
From Verif Require Import GoStr UtilModel CacheModel CacheSpec.
Import ListNotations.
Local Open Scope list_scope.

(** What can be observed on the network: requests with their answers, and waiting *)
Inductive net_event :=
| Asked (q : request) (answer : option response)
| Slept (seconds : Z).

Definition event_of (c : syscall) : reply c -> list net_event :=
  match c return reply c -> list net_event with
  | SDo q => fun a => [Asked q a]
  | SSleep n => fun _ => [Slept n]
  | _ => fun _ => []
  end.

(** Executions with the observed network events *)
Inductive tsteps {A} (faulty : bool) : prog A -> world -> list net_event -> prog A -> world -> Prop :=
| tsteps_refl : forall p w, tsteps faulty p w [] p w
| tsteps_call : forall c k w r w' tr p'' w'',
    sys_step faulty w c r w' -> tsteps faulty (k r) w' tr p'' w'' ->
    tsteps faulty (Call c k) w (event_of c r ++ tr) p'' w''.

Definition tends {A} (faulty : bool) (p : prog A) (w : world) (tr : list net_event) (r : A) (w' : world) : Prop :=
  tsteps faulty p w tr (Ret r) w'.

(** A GET request and a POST request *)
Definition get_request (url : str) : request := mkRequest false url [] [].
Definition post_request (url data : str) : request := mkRequest true url data data.

Definition throttled (r : response) : Prop := a_status r = 429%Z.
Definition successful (r : response) : Prop := a_status r = 200%Z /\ a_api_error r = [].

(** Decimal numbers *)
Definition digit_value (c : ascii) : Z := (Z.of_N (N_of_ascii c) - 48)%Z.
Fixpoint decimal_value (s : str) : Z :=
  match s with
  | [] => 0
  | c :: s' => (digit_value c * 10 ^ Z.of_nat (List.length s') + decimal_value s')%Z
  end.
Definition decimal (s : str) : Prop := s <> [] /\ Forall (fun c => is_digit c = true) s.

(** The number of seconds to wait after a throttled request *)
Inductive wait_for : str -> Z -> Prop :=
| wait_announced : forall header, decimal header -> (decimal_value header < 2 ^ 63)%Z ->
    wait_for header (decimal_value header)
| wait_unknown : forall header, (forall s, decimal s -> header <> s /\ header <> !"+" ++ s /\ header <> !"-" ++ s) ->
    wait_for header 2.

(** Answers to throttled requests, each one followed by waiting *)
Inductive throttle_trace (q : request) : list net_event -> Prop :=
| tt_nil : throttle_trace q []
| tt_cons : forall r n tr, throttled r -> (forall m, wait_for (a_retry_after r) m -> n = m) ->
    throttle_trace q tr -> throttle_trace q (Asked q (Some r) :: Slept n :: tr).

(** How a request ends: with the first answer that is not a throttling answer.  Only [OutOfFuel] - the model stopped
    after [fuel] throttling answers - leaves it open. *)
Definition decided (fuel : nat) (q : request) (r : res response) (tr : list net_event) : Prop :=
  match r with
  | Ok a => exists tr', tr = tr' ++ [Asked q (Some a)] /\ throttle_trace q tr' /\ successful a
  | Err => exists tr' a, tr = tr' ++ [Asked q a] /\ throttle_trace q tr' /\
             (forall r, a = Some r -> ~ throttled r /\ ~ successful r)
  | OutOfFuel => throttle_trace q tr /\ List.length tr = 2 * fuel
  | Panic => False
  end.

(** The answer that delivered the file: the last one, without error and read completely *)
Definition delivered (q : request) (tr : list net_event) (data : str) : Prop :=
  exists tr' a, tr = tr' ++ [Asked q (Some a)] /\ throttle_trace q tr' /\ successful a /\
    a_complete a = true /\ data = all_data (a_body a).

(** Is the file too old to be used at time [now]? *)
Definition outdated (cfg : cache_config) (f : file) (now : Z) : Prop :=
  ((CacheMaxAge cfg + 1) * ns_per_minute <= now - f_mtime f)%Z.

(** Attempts with one host after the other, up to the first that delivers something *)
Inductive asked_in_order {A} (faulty : bool) (attempt : str -> prog (res A))
  : list str -> world -> list net_event -> option A -> world -> Prop :=
| no_host_left : forall w, asked_in_order faulty attempt [] w [] None w
| host_delivers : forall host hosts w tr a w',
    tends faulty (attempt host) w tr (Ok a) w' ->
    asked_in_order faulty attempt (host :: hosts) w tr (Some a) w'
| host_fails : forall host hosts w tr w1 tr1 r w',
    tends faulty (attempt host) w tr Err w1 ->
    asked_in_order faulty attempt hosts w1 tr1 r w' ->
    asked_in_order faulty attempt (host :: hosts) w (tr ++ tr1) r w'.

(** The URLs of all requests *)
Definition requested (tr : list net_event) : list str :=
  flat_map (fun e => match e with Asked q _ => [q_url q] | Slept _ => [] end) tr.

(** All answers come from the given server. *)
Definition server := str -> option response.
Definition answered_by (s : server) (tr : list net_event) : Prop :=
  Forall (fun e => match e with Asked q a => a = s (q_url q) | Slept _ => True end) tr.

Definition starts_with (prefix s : str) : Prop := exists rest, s = prefix ++ rest.
