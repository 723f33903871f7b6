(** Shell commands: /repo/src/utils/parse.rs and the process tasks of
    /repo/src/utils/convenience.rs.  A model of its own: nothing of the timer is used.

    Not modelled: the three process libraries behind [CommandUnify] and
    [ChildUnify] (parse.rs:26-175); what they do is given by [world]. *)
From stdpp Require Export prelude gmap list.
From Coq Require Ascii String.
Open Scope N_scope.

(** ** Strings *)

(** A str, as the list of its chars. *)
Definition text := list N.
Definition txt (s : String.string) : text := Ascii.N_of_ascii <$> String.list_ascii_of_string s.

(** char::is_whitespace (Unicode White_Space). *)
Definition is_space (c : N) : bool :=
  ((9 <=? c) && (c <=? 13)) || (c =? 32) || (c =? 133) || (c =? 160) || (c =? 5760) || ((8192 <=? c) && (c <=? 8202)) ||
  (c =? 8232) || (c =? 8233) || (c =? 8239) || (c =? 8287) || (c =? 12288).

Fixpoint starts_with (p s : text) : bool :=
  match p, s with
  | [], _ => true
  | a :: p', b :: s' => (a =? b) && starts_with p' s'
  | _ :: _, [] => false
  end.
(** str::contains *)
Fixpoint contains (p s : text) : bool :=
  starts_with p s || match s with [] => false | _ :: r => contains p r end.
(** str::split with a non-empty pattern: matches from the left, not overlapping. *)
Fixpoint split_go (p : text) (skip : nat) (acc : text) (s : text) : list text :=
  match s with
  | [] => [reverse acc]
  | c :: r =>
      match skip with
      | S k => split_go p k acc r
      | O => if starts_with p s then reverse acc :: split_go p (pred (length p)) [] r
             else split_go p 0 (c :: acc) r
      end
  end.
Definition split (p s : text) : list text := split_go p 0 [] s.
(** str::split_whitespace *)
Definition add_word (acc : text) (l : list text) : list text := match acc with [] => l | _ => reverse acc :: l end.
Fixpoint words_go (acc : text) (s : text) : list text :=
  match s with
  | [] => add_word acc []
  | c :: r => if is_space c then add_word acc (words_go [] r) else words_go (c :: acc) r
  end.
Definition split_whitespace (s : text) : list text := words_go [] s.
(** str::trim *)
Fixpoint trim_start (s : text) : text := match s with [] => [] | c :: r => if is_space c then trim_start r else s end.
Definition trim_end (s : text) : text := reverse (trim_start (reverse s)).
Definition trim (s : text) : text := trim_end (trim_start s).
(** What follows the last match of [p]; [None] without a match. *)
Fixpoint last_match (p s : text) : option text :=
  match s with
  | [] => None
  | _ :: r => match last_match p r with
              | Some x => Some x
              | None => if starts_with p s then Some (drop (length p) s) else None
              end
  end.
(** rsplit(p).next() *)
Definition rsplit_first (p s : text) : text := default s (last_match p s).
(** split_inclusive(p).rev().next(): an empty last piece is skipped (core::str::iter,
    SplitInternal::next_back_inclusive); the piece before it carries its bracket. *)
Definition inclusive_last (p s : text) : text :=
  match last_match p s with
  | Some [] => default (take (length s - length p) s) (last_match p (take (length s - length p) s)) ++ p
  | Some x => x
  | None => s
  end.

Definition PIPE : text := [32; 124; 32].
Definition GT : text := [62].
Definition GTGT : text := [62; 62].

(** ** Files and processes *)

(** What the operating system answers.  [drops k]: the future of parse_and_run
    is dropped (its task is cancelled) while it prepares the standard input of
    stage [k] (the only await point, parse.rs:290). *)
Record world := World { can_open : text -> bool; can_pipe : nat -> bool; can_spawn : nat -> bool; drops : nat -> bool }.
Definition fs := gmap text text.
Inductive sin := Inherit | FromChild (k : nat).
Inductive sout := Piped | ToFile (f : text) (app : bool).
Inductive act :=
| AOpen (f : text) (app ok : bool)
| ASpawn (prog : text) (args : list text) (i : sin) (o : sout) (ok : bool)
| AKill (k : nat)
| AExit (k : nat).

(** [create_stdio_file] (parse.rs:386-399): write, create, and append for ">>".
    The file is created if it is missing; its content is not truncated. *)
Definition created (f : text) (m : fs) : fs := match m !! f with Some _ => m | None => <[f := []]> m end.
(** What is in a file after [out] was written to a handle opened so, by one
    writer: from the start, or at the end in append mode. *)
Definition written (app : bool) (old out : text) : text := if app then old ++ out else out ++ drop (length out) old.
Definition write_out (o : sout) (out : text) (m : fs) : fs :=
  match o with
  | Piped => m
  | ToFile f app => <[f := written app (default [] (m !! f)) out]> m
  end.

(** [_has_redirect_file] (parse.rs:345-376); [inc] is cfg(SPLIT_INCLUSIVE_COMPATIBLE)
    (build/build.rs:26-28).  The file name is trimmed by create_stdio_file. *)
Definition last_piece (inc : bool) (p s : text) : text := if inc then inclusive_last p s else rsplit_first p s.
Definition redirect (inc : bool) (c : text) : option (bool * text) :=
  if contains GTGT c then Some (true, trim (last_piece inc GTGT (trim c)))
  else if contains GT c then Some (false, trim (last_piece inc GT (trim c)))
  else None.
(** [_remove_angle_bracket_command] (parse.rs:379-384) *)
Definition remove_bracket (c : text) : text := default [] (head (split GT (trim c))).

(** The loop of [parse_and_run] (parse.rs:268-337), with [k] processes started so
    far.  The result: did it end with Ok, what happened, the number of processes
    started, the files.  [Command::new] to [spawn] is one step. *)
Fixpoint stages (inc : bool) (w : world) (k : nat) (cmds : list text) (m : fs) : bool * list act * nat * fs :=
  match cmds with
  | [] => (true, [], k, m)
  | c :: cs =>
      let rd := redirect inc c in
      let '(opened, acts0, m0) :=
        match rd with
        | None => (true, [], m)
        | Some (app, f) => if can_open w f then (true, [AOpen f app true], created f m) else (false, [AOpen f app false], m)
        end in
      let c' := match rd with Some _ => remove_bracket c | None => c end in
      match split_whitespace c' with
      | [] => (false, acts0, k, m0)                        (* "Without next part" *)
      | prog :: args =>
          let i := match k with O => Inherit | S k' => if can_pipe w k' then FromChild k' else Inherit end in
          if match k with O => false | S _ => drops w k end then (false, acts0, k, m0)
          else if negb opened then (false, acts0, k, m0)
          else
            let o := match rd with Some (app, f) => ToFile f app | None => Piped end in
            if can_spawn w k then
              match rd with
              | Some _ => (true, acts0 ++ [ASpawn prog args i o true], S k, m0)   (* break *)
              | None => let '(ok, acts, n, m1) := stages inc w (S k) cs m0 in
                        (ok, acts0 ++ ASpawn prog args i o true :: acts, n, m1)
              end
            else (false, acts0 ++ [ASpawn prog args i o false], k, m0)
      end
  end.

(** [parse_and_run] (parse.rs:256-339).  When it fails or is dropped, the list of
    [ChildGuard]s is dropped, front to back, and each guard kills its child
    ([Drop for ChildGuard], 225-233). *)
Definition kill_all (n : nat) : list act := AKill <$> seq 0 n.
Definition parse_and_run (inc : bool) (w : world) (input : text) (m : fs) : bool * list act * nat * fs :=
  let '(ok, acts, n, m') := stages inc w 0 (split PIPE (trim input)) m in
  (ok, acts ++ (if ok then [] else kill_all n), n, m').

(** What the files hold once the last process has written [out] to its standard
    output and ended; [acts] is what parse_and_run did. *)
Definition last_out (acts : list act) : option sout :=
  last (omap (fun a => match a with ASpawn _ _ _ o true => Some o | _ => None end) acts).
Definition run_line (inc : bool) (w : world) (input : text) (m : fs) (out : text) : fs :=
  let '(_, acts, _, m') := parse_and_run inc w input m in
  match last_out acts with Some o => write_out o out m' | None => m' end.

(** [unblock_process_task_fn] and [tokio_unblock_process_task_fn]
    (convenience.rs:36-60, 76-99): the last child is taken out of its guard
    (ChildGuard::wait, parse.rs:199-209) and awaited.  When it has exited, and
    also when the task is cancelled meanwhile, the other guards are dropped; the
    last child itself is dropped without being killed (neither library kills on
    drop unless asked to). *)
Inductive process_end := Exited | Cancelled.
Definition process_task (inc : bool) (w : world) (input : text) (m : fs) (e : process_end) : list act :=
  let '(ok, acts, n, m') := parse_and_run inc w input m in
  if ok then acts ++ (match e with Exited => [AExit (pred n)] | Cancelled => [] end) ++ kill_all (pred n) else acts.
