(** Model of the process cap of raytools/io.py and of pool_call,
    raytools/utility.py *)
From Coq Require Import Ascii String.
From Verif Require Import Base.
Import ListNotations.
Local Open Scope Z_scope.

(** * python's str(int) and int(str), ascii only *)

(** python str and int as used at io.py:21-39 *)
Definition digit (c : ascii) : option Z :=
  let n := Z.of_N (N_of_ascii c) in
  if (48 <=? n) && (n <=? 57) then Some (n - 48) else None.
(** python str and int as used at io.py:21-39 *)
Definition is_space (c : ascii) : bool :=
  let n := Z.of_N (N_of_ascii c) in
  (n =? 32) || ((9 <=? n) && (n <=? 13)) || ((28 <=? n) && (n <=? 31)).
(** digits with single underscores between them. Python str and int as used at io.py:21-39 *)
Fixpoint digits_from (acc : Z) (l : list ascii) : option Z :=
  match l with
  | [] => Some acc
  | "_"%char :: ((c :: _) as l') =>
      match digit c with Some _ => digits_from acc l' | None => None end
  | c :: l => match digit c with Some d => digits_from (10 * acc + d) l | None => None end
  end.
(** python str and int as used at io.py:21-39 *)
Definition digits (l : list ascii) : option Z :=
  match l with
  | [] => None
  | c :: _ => match digit c with Some _ => digits_from 0 l | None => None end
  end.
(** python str and int as used at io.py:21-39 *)
Fixpoint lstrip (l : list ascii) : list ascii :=
  match l with c :: l' => if is_space c then lstrip l' else l | [] => [] end.
(** python str and int as used at io.py:21-39 *)
Definition strip (l : list ascii) : list ascii := rev (lstrip (rev (lstrip l))).
(** int(s): optional surrounding blanks, optional sign, digits. Python str and int as used at io.py:21-39 *)
Definition py_int (s : list ascii) : option Z :=
  match strip s with
  | "-"%char :: l => option_map Z.opp (digits l)
  | "+"%char :: l => digits l
  | l => digits l
  end.
(** str(n). Python str and int as used at io.py:21-39 *)
Definition digit_char (d : Z) : ascii := ascii_of_N (Z.to_N (48 + d)).
(** python str and int as used at io.py:21-39 *)
Fixpoint print_pos (fuel : nat) (n : Z) (acc : list ascii) : list ascii :=
  match fuel with
  | O => acc
  | S k => let acc := digit_char (n mod 10) :: acc in
           if n <? 10 then acc else print_pos k (n / 10) acc
  end.
(** python str and int as used at io.py:21-39 *)
Definition py_str (n : Z) : list ascii :=
  if n <? 0 then "-"%char :: print_pos (S (Z.to_nat (Z.log2 (- n)))) (- n) []
  else print_pos (S (Z.to_nat (Z.log2 n))) n [].

(** * io.py:21-46: RAYTOOLS_PROC_CAP *)

(** value of the environment variable, None when absent (io.py:21-46) *)
Definition env := option (list ascii).
(** an argument: None, an object of type int, anything else (bool, float, str) (io.py:21-46) *)
Inductive nproc_arg := ArgNone | ArgInt (n : Z) | ArgOther.

(** io.py:42-46 *)
Definition unset_nproc (e : env) : env := None.
(** io.py:31-39: the new environment, or ValueError (environment unchanged) *)
Definition set_nproc (a : nproc_arg) (e : env) : env * option exn :=
  match a with
  | ArgNone => (e, None)
  | ArgOther => (e, Some ValueError)
  | ArgInt n => if n <? 1 then (unset_nproc e, None) else (Some (py_str n), None)
  end.
(** io.py:21-28; [cpus] is os.cpu_count() *)
Definition get_nproc (cpus : Z) (a : option Z) (e : env) : Z :=
  match a with
  | Some n => n
  | None => match e with
            | Some s => match py_int s with Some n => n | None => cpus end
            | None => cpus
            end
  end.

(** the calls a program can make (io.py:21-46) *)
Inductive nproc_op := OpSet (a : nproc_arg) | OpUnset.
(** io.py:21-46 *)
Definition nproc_step (e : env) (o : nproc_op) : env :=
  match o with OpSet a => fst (set_nproc a e) | OpUnset => unset_nproc e end.
(** io.py:21-46 *)
Definition nproc_run (ops : list nproc_op) (e : env) : env := fold_left nproc_step ops e.

(** * utility.py:25-40, 64-131: pool_call *)

(** the argument workers: a bool or a string (utility.py:24-40, 66-131) *)
Inductive pyworkers := WBool (b : bool) | WStr (s : string).
(** utility.py:24-40, 66-131 *)
Inductive wkind := NoPool | ThreadPool | ProcessPool.
(** ascii lower case (utility.py:24-40, 66-131) *)
Definition lower (c : ascii) : ascii :=
  let n := N_of_ascii c in
  if (65 <=? n)%N && (n <=? 90)%N then ascii_of_N (n + 32) else c.
(** utility.py:24-40, 66-131 *)
Definition str_lower (s : string) : string :=
  string_of_list_ascii (map lower (list_ascii_of_string s)).
(** utility.py:26-33 and the test at utility.py:108 *)
Definition worker_kind (w : pyworkers) : wkind :=
  match w with
  | WBool true => ProcessPool
  | WBool false => NoPool
  | WStr s =>
      if string_dec s "" then NoPool
      else if existsb (fun t => if string_dec (str_lower s) t then true else false) ["thread"; "t"; "threads"]%string
      then ThreadPool else ProcessPool
  end.
(** number of workers of the executor. ThreadPoolExecutor() is built without an
    argument (utility.py:27): min(32, cpus + 4). ProcessPoolExecutor raises
    ValueError for a size below one *)
Definition pool_size (k : wkind) (cpus : Z) (cap : option Z) (e : env) : res nat :=
  match k with
  | NoPool => Ok 0%nat
  | ThreadPool => Ok (Z.to_nat (Z.min 32 (cpus + 4)))
  | ProcessPool => let n := get_nproc cpus cap e in
                   if n <? 1 then Raise ValueError else Ok (Z.to_nat n)
  end.

(** The function called is [func : list V -> res B] (positional arguments; the
    keyword arguments are fixed and part of func). [unpack] is python's
    star-unpacking of one argument: None when it is not iterable.
    Simplification: func is a function of its arguments (no shared mutable
    state between calls). (utility.py:99-131) *)
Definition call_args {V} (unpack : V -> option (list V)) (expandarg : bool) (fixed : list V) (arg : V) : option (list V) :=
  if expandarg then option_map (fun l => l ++ fixed) (unpack arg) else Some (arg :: fixed).

(** utility.py:108-115 (also the loop of the doc string, utility.py:68-73) *)
Fixpoint seq_call {V B} (unpack : V -> option (list V)) (expandarg : bool) (func : list V -> res B)
         (fixed args : list V) : res (list B) :=
  match args with
  | [] => Ok []
  | a :: args =>
      match call_args unpack expandarg fixed a with
      | None => Raise TypeError
      | Some l => bind (func l) (fun b => bind (seq_call unpack expandarg func fixed args) (fun bs => Ok (b :: bs)))
      end
  end.

(** state of one future, and of the call of pool_call (utility.py:99-131) *)
Inductive future (B : Type) := Pending | Running | Done (r : res B).
Arguments Pending {B}.
Arguments Running {B}.
Arguments Done {B} r.
(** utility.py:99-131 *)
Record pool_state (B : Type) := PS {
  ps_futures : list (future B);       (* submitted so far, in order (utility.py:121-126) *)
  ps_results : list B;                (* gathered so far (utility.py:128-130) *)
  ps_out : option (res (list B));     (* what pool_call returned or raised *)
  ps_calls : list nat                 (* indices of the calls started, in order *)
}.
Arguments PS {B}.
Arguments ps_futures {B}.
Arguments ps_results {B}.
Arguments ps_out {B}.
Arguments ps_calls {B}.
(** utility.py:99-131 *)
Definition pool_init {B} : pool_state B := PS [] [] None [].

(** utility.py:99-131 *)
Definition is_running {B} (f : future B) : bool := match f with Running => true | _ => false end.
(** utility.py:99-131 *)
Definition running {B} (l : list (future B)) : nat := List.length (filter is_running l).
(** utility.py:99-131 *)
Fixpoint set_nth {A} (l : list A) (i : nat) (x : A) : list A :=
  match l, i with
  | [], _ => []
  | _ :: l, O => x :: l
  | y :: l, S i => y :: set_nth l i x
  end.

(** one step of the main thread or of the executor with [w] workers (utility.py:99-131) *)
Inductive pool_step {V B} (unpack : V -> option (list V)) (expandarg : bool) (func : list V -> res B)
          (fixed args : list V) (w : nat) : pool_state B -> pool_state B -> Prop :=
(* utility.py:121-126: submit the next argument *)
| step_submit s a l : ps_out s = None ->
    nth_error args (List.length (ps_futures s)) = Some a ->
    call_args unpack expandarg fixed a = Some l ->
    pool_step unpack expandarg func fixed args w s (PS (ps_futures s ++ [Pending]) (ps_results s) None (ps_calls s))
(* star-unpacking fails in the main thread *)
| step_submit_error s a : ps_out s = None ->
    nth_error args (List.length (ps_futures s)) = Some a ->
    call_args unpack expandarg fixed a = None ->
    pool_step unpack expandarg func fixed args w s (PS (ps_futures s) (ps_results s) (Some (Raise TypeError)) (ps_calls s))
(* an idle worker takes the oldest waiting call *)
| step_start s i : nth_error (ps_futures s) i = Some Pending ->
    (forall j, (j < i)%nat -> nth_error (ps_futures s) j <> Some Pending) ->
    (running (ps_futures s) < w)%nat ->
    pool_step unpack expandarg func fixed args w s (PS (set_nth (ps_futures s) i Running) (ps_results s) (ps_out s) (ps_calls s ++ [i]))
(* any running call may finish next *)
| step_finish s i a l : nth_error (ps_futures s) i = Some Running ->
    nth_error args i = Some a -> call_args unpack expandarg fixed a = Some l ->
    pool_step unpack expandarg func fixed args w s (PS (set_nth (ps_futures s) i (Done (func l))) (ps_results s) (ps_out s) (ps_calls s))
(* utility.py:128-130: the main thread waits for the futures in order *)
| step_gather s b : ps_out s = None -> List.length (ps_futures s) = List.length args ->
    nth_error (ps_futures s) (List.length (ps_results s)) = Some (Done (Ok b)) ->
    pool_step unpack expandarg func fixed args w s (PS (ps_futures s) (ps_results s ++ [b]) None (ps_calls s))
| step_gather_error s e : ps_out s = None -> List.length (ps_futures s) = List.length args ->
    nth_error (ps_futures s) (List.length (ps_results s)) = Some (Done (Raise e)) ->
    pool_step unpack expandarg func fixed args w s (PS (ps_futures s) (ps_results s) (Some (Raise e)) (ps_calls s))
(* utility.py:131 *)
| step_return s : ps_out s = None -> List.length (ps_results s) = List.length args ->
    pool_step unpack expandarg func fixed args w s (PS (ps_futures s) (ps_results s) (Some (Ok (ps_results s))) (ps_calls s)).

(** runs: n steps from the start (utility.py:99-131) *)
Inductive pool_run {V B} (unpack : V -> option (list V)) (expandarg : bool) (func : list V -> res B)
          (fixed args : list V) (w : nat) : nat -> pool_state B -> Prop :=
| run_start : pool_run unpack expandarg func fixed args w 0 pool_init
| run_step n s s' : pool_run unpack expandarg func fixed args w n s ->
    pool_step unpack expandarg func fixed args w s s' ->
    pool_run unpack expandarg func fixed args w (S n) s'.
