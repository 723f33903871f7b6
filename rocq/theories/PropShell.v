(** C34-C36: shell commands. *)
From Coq Require String.
From Verif Require Import Shell.
Import String.StringSyntax.
Open Scope string_scope.
Open Scope N_scope.
Local Arguments N.eqb : simpl never.

(** ** What is written *)

(** Words, commands and pipelines as a user writes them. *)
Definition word (w : text) : Prop := w <> [] /\ w <> [124] /\ Forall (fun c => is_space c = false /\ c <> 62) w.
Definition command (c : list text) : Prop := c <> [] /\ Forall word c.
Fixpoint join (sep : text) (l : list text) : text :=
  match l with [] => [] | [x] => x | x :: r => x ++ sep ++ join sep r end.
(** A file name: no blanks at its ends, no bracket, no " | " with the blank before it. *)
Definition file_name (f : text) : Prop := f <> [] /\ trim f = f /\ ~ (62 ∈ f) /\ contains PIPE (32 :: f) = false.
Definition redir := option (bool * text).
Definition good_redir (r : redir) : Prop := match r with None => True | Some (_, f) => file_name f end.
Definition written_redir (r : redir) : text :=
  match r with
  | None => []
  | Some (app, f) => [32] ++ (if app : bool then GTGT else GT) ++ [32] ++ f
  end.
Definition written_line (cmds : list (list text)) (r : redir) : text := join PIPE (join [32] <$> cmds) ++ written_redir r.

(** What it means: the programs, their arguments, what they read and where they write. *)
Definition out_of (r : redir) : sout := match r with None => Piped | Some (app, f) => ToFile f app end.
Definition in_of (k : nat) : sin := match k with O => Inherit | S k' => FromChild k' end.
Definition expected (cmds : list (list text)) (r : redir) : list (text * list text * sin * sout) :=
  imap (fun k c => (default [] (head c), tail c, in_of k, if (S k =? length cmds)%nat then out_of r else Piped)) cmds.

(** What happened. *)
Definition started (acts : list act) : list (text * list text * sin * sout) :=
  omap (fun a => match a with ASpawn p a i o true => Some (p, a, i, o) | _ => None end) acts.
Definition opened (acts : list act) : list (text * bool) :=
  omap (fun a => match a with AOpen f app _ => Some (f, app) | _ => None end) acts.
Definition killed (acts : list act) : list nat := omap (fun a => match a with AKill k => Some k | _ => None end) acts.
(** A world in which nothing fails and nobody cancels. *)
Definition fine (w : world) : Prop :=
  (forall f, can_open w f = true) /\ (forall k, can_pipe w k = true) /\ (forall k, can_spawn w k = true) /\
  (forall k, drops w k = false).

(** ** Strings *)

Lemma starts_app p s r : (length p <= length s)%nat -> starts_with p (s ++ r) = starts_with p s.
Proof.
  revert s. induction p as [|a p IH]; intros [|b s] H; cbn in *; try done; try lia.
  rewrite IH by lia. done.
Qed.

Lemma split_next x acc r :
  contains PIPE (x ++ [32; 124]) = false ->
  split_go PIPE 0 acc (x ++ PIPE ++ r) = (reverse acc ++ x) :: split_go PIPE 0 [] r.
Proof.
  revert acc. induction x as [|c x IH]; intros acc H.
  - cbn. rewrite app_nil_r. reflexivity.
  - change ((c :: x) ++ [32; 124]) with (c :: (x ++ [32; 124])) in H.
    cbn [contains] in H. apply orb_false_elim in H as [H1 H2].
    change ((c :: x) ++ PIPE ++ r) with (c :: (x ++ PIPE ++ r)).
    cbn [split_go].
    assert (starts_with PIPE (c :: x ++ PIPE ++ r) = false) as ->.
    { change (PIPE ++ r) with ([32; 124] ++ (32 :: r)). rewrite (assoc_L (++)).
      rewrite <- H1. change (c :: (x ++ [32; 124]) ++ 32 :: r) with ((c :: (x ++ [32; 124])) ++ 32 :: r).
      apply starts_app. cbn. rewrite app_length. cbn. lia. }
    rewrite (IH (c :: acc)) by done. rewrite reverse_cons, <- (assoc_L (++)). reflexivity.
Qed.

Lemma split_last p x acc : contains p x = false -> split_go p 0 acc x = [reverse acc ++ x].
Proof.
  revert acc. induction x as [|c x IH]; intros acc H.
  - cbn. by rewrite app_nil_r.
  - cbn [contains] in H. apply orb_false_elim in H as [H1 H2]. cbn [split_go]. rewrite H1.
    rewrite (IH (c :: acc)) by done. rewrite reverse_cons, <- (assoc_L (++)). reflexivity.
Qed.

Lemma space_32 c : is_space c = false -> c <> 32.
Proof. by intros H ->. Qed.

Lemma contains_word w s : Forall (fun c => is_space c = false /\ c <> 62) w -> contains PIPE (w ++ s) = contains PIPE s.
Proof.
  induction 1 as [|c w [Hc _] Hw IH]; [done|].
  cbn [app contains]. rewrite IH. cbn [PIPE starts_with]. apply space_32 in Hc.
  destruct (N.eqb_spec 32 c); [congruence|]. done.
Qed.

Lemma contains_blank w s :
  word w -> (match s with [] => True | c :: _ => c = 32 end) -> contains PIPE (32 :: w ++ s) = contains PIPE s.
Proof.
  intros (H1 & H2 & H3) Hs. cbn [contains]. rewrite contains_word by done.
  destruct w as [|c [|d w]]; [done| |].
  - assert (starts_with PIPE (32 :: [c] ++ s) = false) as ->; [|done].
    cbn [app starts_with PIPE]. destruct (N.eqb_spec 124 c); [congruence|]. by rewrite andb_false_r.
  - assert (starts_with PIPE (32 :: (c :: d :: w) ++ s) = false) as ->; [|done].
    apply Forall_cons in H3 as [_ H3]. apply Forall_cons in H3 as [[Hd _] _]. apply space_32 in Hd.
    cbn [app starts_with PIPE]. destruct (N.eqb_spec 32 d); [congruence|]. by rewrite !andb_false_r.
Qed.

Lemma join_cons sep x l : l <> [] -> join sep (x :: l) = x ++ sep ++ join sep l.
Proof. by destruct l. Qed.

Lemma contains_command c s :
  command c -> (match s with [] => True | x :: _ => x = 32 end) ->
  contains PIPE (join [32] c ++ s) = contains PIPE s /\ contains PIPE (32 :: join [32] c ++ s) = contains PIPE s.
Proof.
  intros [Hn Hw] Hs. induction Hw as [|w c Hw Hws IH]; [done|].
  destruct (decide (c = [])) as [->|Hc].
  - cbn [join]. split; [apply contains_word; apply Hw|by apply contains_blank].
  - specialize (IH Hc) as [IH1 IH2]. rewrite (join_cons _ _ _ Hc). rewrite <- !(assoc_L (++)).
    split.
    + rewrite contains_word by apply Hw. exact IH2.
    + rewrite contains_blank by done. exact IH2.
Qed.

Lemma words_word w acc s : Forall (fun c => is_space c = false /\ c <> 62) w -> words_go acc (w ++ s) = words_go (reverse w ++ acc) s.
Proof.
  intros H. revert acc. induction H as [|c w [Hc _] Hw IH]; intros acc; [done|].
  cbn [app words_go]. rewrite Hc, IH, reverse_cons, <- (assoc_L (++)). done.
Qed.

Lemma add_word_rev w l : w <> [] -> add_word (reverse w) l = w :: l.
Proof.
  intros H. unfold add_word. destruct (reverse w) eqn:E.
  - apply (f_equal reverse) in E. rewrite reverse_involutive in E. done.
  - rewrite <- E, reverse_involutive. done.
Qed.

Lemma words_command c s :
  command c -> s = [] \/ s = [32] -> split_whitespace (join [32] c ++ s) = c.
Proof.
  intros [Hn Hw] Hs. unfold split_whitespace. induction Hw as [|w c Hw Hws IH]; [done|].
  destruct (decide (c = [])) as [->|Hc].
  - cbn [join]. rewrite words_word by apply Hw. rewrite app_nil_r.
    destruct Hs as [-> | ->]; cbn; by rewrite add_word_rev by apply Hw.
  - rewrite (join_cons _ _ _ Hc), <- !(assoc_L (++)), words_word by apply Hw. rewrite app_nil_r.
    cbn [app words_go]. change (is_space 32) with true. cbn iota. rewrite add_word_rev by apply Hw. by rewrite IH.
Qed.

Lemma trim_id x a y b z : x = a :: y -> x = z ++ [b] -> is_space a = false -> is_space b = false -> trim x = x.
Proof.
  intros H1 H2 Ha Hb. unfold trim. assert (trim_start x = x) as ->.
  { rewrite H1. cbn. by rewrite Ha. }
  unfold trim_end. rewrite H2, reverse_app. cbn. rewrite Hb. rewrite <- (reverse_involutive z) at 2.
  change (reverse (b :: reverse z) = reverse (reverse z) ++ [b]). apply reverse_cons.
Qed.

Lemma word_first w : word w -> exists a y, w = a :: y /\ is_space a = false.
Proof.
  intros (H1 & _ & H3). destruct w as [|a y]; [done|]. apply Forall_cons in H3 as [[] _]. eauto.
Qed.
Lemma word_last w : word w -> exists b z, w = z ++ [b] /\ is_space b = false.
Proof.
  intros (H1 & _ & H3). destruct w as [|b z] using rev_ind; [done|].
  apply Forall_app in H3 as [_ H3]. apply Forall_cons in H3 as [[] _]. eauto.
Qed.
Lemma command_first c : command c -> exists a y, join [32] c = a :: y /\ is_space a = false.
Proof.
  intros [Hn Hw]. destruct Hw as [|w c Hw Hws]; [done|].
  destruct (word_first w Hw) as (a & y & -> & Ha). destruct c; cbn; eauto.
Qed.
Lemma command_last c : command c -> exists b z, join [32] c = z ++ [b] /\ is_space b = false.
Proof.
  intros [Hn Hw]. induction Hw as [|w c Hw Hws IH]; [done|].
  destruct (decide (c = [])) as [->|Hc].
  - by apply word_last.
  - destruct (IH Hc) as (b & z & E & Hb). exists b, (w ++ [32] ++ z). split; [|done].
    rewrite (join_cons _ _ _ Hc), E, <- !(assoc_L (++)). done.
Qed.
Lemma trimmed_last f : f <> [] -> trim f = f -> exists b z, f = z ++ [b] /\ is_space b = false.
Proof.
  intros Hn H. destruct f as [|b z] using rev_ind; [done|]. exists b, z. split; [done|].
  destruct (is_space b) eqn:E; [|done]. exfalso.
  assert (forall l, (length (trim_start l) <= length l)%nat) as Hle.
  { induction l as [|x l IHl]; cbn; [lia|]. destruct (is_space x); cbn; lia. }
  apply (f_equal length) in H. unfold trim, trim_end in H. rewrite reverse_length in H.
  assert (trim_start (z ++ [b]) = [] \/ exists z', trim_start (z ++ [b]) = z' ++ [b] /\ (length z' <= length z)%nat) as Hs.
  { clear -E. induction z as [|x z IH]; cbn.
    - rewrite E. by left.
    - destruct (is_space x); [|right; exists (x :: z); done].
      destruct IH as [->|(z' & -> & ?)]; [by left|right]. exists z'. split; [done|]. cbn. lia. }
  destruct Hs as [Hs|(z' & Hs & Hl)]; rewrite Hs in H.
  - rewrite app_length in H. cbn in H. lia.
  - rewrite reverse_app in H. cbn in H. rewrite E in H. rewrite app_length in H. cbn in H.
    specialize (Hle (reverse z')). rewrite reverse_length in Hle. lia.
Qed.
Lemma trim_blank f : f <> [] -> trim f = f -> trim (32 :: f) = f.
Proof. intros _ H. unfold trim in *. cbn. exact H. Qed.

Lemma no_gt_command c : command c -> ~ (62 ∈ join [32] c).
Proof.
  intros [Hn Hw]. induction Hw as [|w c Hw Hws IH]; [done|].
  assert (~ 62 ∈ w) as H.
  { intros Hi. destruct Hw as (_ & _ & Hw). rewrite Forall_forall in Hw. by destruct (Hw _ Hi). }
  destruct (decide (c = [])) as [->|Hc]; [done|]. rewrite (join_cons _ _ _ Hc), !elem_of_app.
  intros [|[Hb|]]; [done| |by apply IH]. apply elem_of_list_singleton in Hb. done.
Qed.

Lemma contains_GT s : contains GT s = true <-> 62 ∈ s.
Proof.
  induction s as [|c s IH]; cbn.
  - split; [done|by intros ?%elem_of_nil].
  - rewrite elem_of_cons, <- IH, orb_true_iff, andb_true_r, N.eqb_eq. done.
Qed.
Lemma contains_GTGT s : contains GTGT s = true -> 62 ∈ s.
Proof.
  induction s as [|c s IH]; cbn; [done|]. rewrite elem_of_cons, orb_true_iff, andb_true_iff, N.eqb_eq.
  intros [[<- _]|H]; auto.
Qed.
Lemma contains_app_r p x s : contains p s = true -> contains p (x ++ s) = true.
Proof. intros H. induction x as [|c x IH]; [done|]. cbn [app contains]. rewrite IH. by rewrite orb_true_r. Qed.

Lemma no_gt_contains s : ~ (62 ∈ s) -> contains GT s = false /\ contains GTGT s = false.
Proof.
  intros H. split; apply not_true_is_false; intros Hc; apply H; [by apply contains_GT|by apply contains_GTGT].
Qed.

(** One bracket: "c > f" contains no ">>". *)
Lemma contains_one c f : ~ (62 ∈ c) -> ~ (62 ∈ f) -> contains GTGT (c ++ [32; 62; 32] ++ f) = false.
Proof.
  intros Hc Hf. induction c as [|x c IH].
  - cbn. apply no_gt_contains, Hf.
  - rewrite not_elem_of_cons in Hc. destruct Hc as [Hx Hc]. 
    change ((x :: c) ++ [32; 62; 32] ++ f) with (x :: (c ++ [32; 62; 32] ++ f)). cbn [contains]. rewrite IH by done.
    cbn [starts_with GTGT]. destruct (N.eqb_spec 62 x); [done|]. done.
Qed.

Lemma last_none s : ~ (62 ∈ s) -> last_match GT s = None /\ last_match GTGT s = None.
Proof.
  intros H. induction s as [|c s IH]; [done|]. rewrite not_elem_of_cons in H. destruct H as [Hc H].
  destruct (IH H) as [H1 H2]. cbn [last_match]. rewrite H1, H2. cbn [starts_with GT GTGT].
  destruct (N.eqb_spec 62 c); [done|]. done.
Qed.
Lemma last_app p x s r : last_match p s = Some r -> last_match p (x ++ s) = Some r.
Proof. intros H. induction x as [|c x IH]; [done|]. cbn [app last_match]. by rewrite IH. Qed.
Lemma last_one f : ~ (62 ∈ f) -> last_match GT (62 :: f) = Some f.
Proof. intros H. cbn [last_match]. destruct (last_none f H) as [-> _]. cbn. done. Qed.
Lemma last_two f : ~ (62 ∈ f) -> f <> [] -> last_match GTGT (62 :: 62 :: f) = Some f.
Proof.
  intros H Hn. cbn [last_match]. destruct (last_none f H) as [_ ->].
  destruct f as [|c f]; [done|]. rewrite not_elem_of_cons in H. cbn [starts_with GTGT].
  destruct (N.eqb_spec 62 c); [tauto|]. done.
Qed.

Lemma head_split c r : ~ (62 ∈ c) -> head (split_go GT 0 [] (c ++ 62 :: r)) = Some c.
Proof.
  intros Hc. assert (forall acc, head (split_go GT 0 acc (c ++ 62 :: r)) = Some (reverse acc ++ c)) as H; [|apply H].
  induction c as [|x c IH]; intros acc.
  - cbn. by rewrite app_nil_r.
  - rewrite not_elem_of_cons in Hc. destruct Hc as [Hx Hc]. cbn [app split_go starts_with GT].
    destruct (N.eqb_spec 62 x); [done|]. cbn [andb]. rewrite IH by done. rewrite reverse_cons, <- (assoc_L (++)). done.
Qed.

(** ** The stages of a written line *)

Lemma stage_plain inc c : command c -> redirect inc (join [32] c) = None.
Proof.
  intros H. destruct (no_gt_contains _ (no_gt_command _ H)) as [H1 H2]. unfold redirect. by rewrite H1, H2.
Qed.

Lemma stage_redir inc c app f :
  command c -> file_name f ->
  redirect inc (join [32] c ++ written_redir (Some (app, f))) = Some (app, f) /\
  split_whitespace (remove_bracket (join [32] c ++ written_redir (Some (app, f)))) = c.
Proof.
  intros Hc (Hn & Ht & Hb & _).
  assert (trim (join [32] c ++ written_redir (Some (app, f))) = join [32] c ++ written_redir (Some (app, f))) as Htr.
  { destruct (command_first _ Hc) as (a & y & E & Ha). destruct (trimmed_last f Hn Ht) as (b & z & Ez & Hbz).
    eapply (trim_id _ a _ b); [| |done|done].
    - rewrite E. done.
    - cbn [written_redir]. rewrite Ez. rewrite !(assoc_L (++)). done. }
  pose proof (no_gt_command _ Hc) as Hg.
  assert (~ 62 ∈ 32 :: f) as Hbf by (rewrite not_elem_of_cons; done).
  assert (forall p, last_match p (join [32] c ++ written_redir (Some (app, f))) = Some (32 :: f) ->
          trim (last_piece inc p (join [32] c ++ written_redir (Some (app, f)))) = f) as Hp.
  { intros p E. unfold last_piece, inclusive_last, rsplit_first. rewrite E. destruct inc; by apply trim_blank. }
  split.
  - unfold redirect. rewrite Htr. destruct app.
    + assert (contains GTGT (join [32] c ++ written_redir (Some (true, f))) = true) as ->.
      { apply contains_app_r. done. }
      rewrite Hp; [done|]. apply last_app. cbn [written_redir].
      change ([32] ++ GTGT ++ [32] ++ f) with ([32] ++ (62 :: 62 :: 32 :: f)). apply last_app. by apply last_two.
    + assert (contains GTGT (join [32] c ++ written_redir (Some (false, f))) = false) as ->.
      { change (written_redir (Some (false, f))) with ([32; 62; 32] ++ f). by apply contains_one. }
      assert (contains GT (join [32] c ++ written_redir (Some (false, f))) = true) as ->.
      { apply contains_app_r. done. }
      rewrite Hp; [done|]. apply last_app. cbn [written_redir].
      change ([32] ++ GT ++ [32] ++ f) with ([32] ++ (62 :: 32 :: f)). apply last_app. by apply last_one.
  - unfold remove_bracket. rewrite Htr.
    assert (exists r, join [32] c ++ written_redir (Some (app, f)) = (join [32] c ++ [32]) ++ 62 :: r) as [r E].
    { destruct app; cbn [written_redir]; eexists; rewrite <- (assoc_L (++)); cbn; done. }
    rewrite E. unfold split. rewrite head_split.
    + cbn [default]. apply words_command; [done|by right].
    + rewrite elem_of_app. intros [|Hx]; [done|]. apply elem_of_list_singleton in Hx. done.
Qed.

(** The pieces of a written line. *)
Fixpoint pieces (cmds : list (list text)) (r : redir) : list text :=
  match cmds with
  | [] => []
  | [c] => [join [32] c ++ written_redir r]
  | c :: cs => join [32] c :: pieces cs r
  end.

Lemma contains_redir r : good_redir r -> contains PIPE (written_redir r) = false.
Proof.
  destruct r as [[app f]|]; [|done]. intros (H1 & H2 & H3 & H4). cbn [written_redir].
  change (contains PIPE (32 :: (if app then GTGT else GT) ++ 32 :: f) = false).
  assert (forall s, contains PIPE (62 :: s) = contains PIPE s) as Hg by done.
  destruct app; cbn [GT GTGT Datatypes.app contains].
  - cbn [contains] in H4. change (starts_with PIPE (62 :: 32 :: f)) with false.
    change (starts_with PIPE (62 :: 62 :: 32 :: f)) with false. change (starts_with PIPE (32 :: 62 :: 62 :: 32 :: f)) with false.
    cbn [orb]. exact H4.
  - cbn [contains] in H4. change (starts_with PIPE (62 :: 32 :: f)) with false.
    change (starts_with PIPE (32 :: 62 :: 32 :: f)) with false. cbn [orb]. exact H4.
Qed.

Lemma split_line cmds r :
  cmds <> [] -> Forall command cmds -> good_redir r -> split PIPE (trim (written_line cmds r)) = pieces cmds r.
Proof.
  intros Hn Hc Hr.
  assert (trim (written_line cmds r) = written_line cmds r) as ->.
  { assert (exists a y, join PIPE (join [32] <$> cmds) = a :: y /\ is_space a = false) as (a & y & E & Ha).
    { destruct Hc as [|c cs Hc Hcs]; [done|]. destruct (command_first _ Hc) as (a & y & E & Ha).
      destruct cs; cbn [fmap list_fmap join]; rewrite E; eauto. }
    assert (exists b z, written_line cmds r = z ++ [b] /\ is_space b = false) as (b & z & Ez & Hb).
    { unfold written_line. destruct r as [[app f]|].
      - destruct Hr as (Hf & Ht & _). destruct (trimmed_last _ Hf Ht) as (b & z & -> & Hb).
        exists b. cbn [written_redir]. rewrite !(assoc_L (++)). eauto.
      - cbn [written_redir]. rewrite app_nil_r. clear -Hn Hc.
        induction Hc as [|c cs Hc Hcs IH]; [done|]. destruct (decide (cs = [])) as [->|Hcn].
        + destruct (command_last _ Hc) as (b & z & E & Hb). exists b, z. done.
        + destruct (IH Hcn) as (b & z & E & Hb). exists b. rewrite fmap_cons, join_cons.
          * rewrite E, !(assoc_L (++)). eauto.
          * by destruct cs. }
    eapply (trim_id _ a _ b); [|exact Ez|done|done]. unfold written_line. rewrite E. done. }
  unfold written_line, split. induction Hc as [|c cs Hc Hcs IH]; [done|].
  destruct (decide (cs = [])) as [->|Hcn].
  - cbn [fmap list_fmap join pieces]. rewrite split_last; [done|].
    destruct (contains_command c (written_redir r) Hc) as [-> _].
    + destruct r as [[app f]|]; done.
    + by apply contains_redir.
  - rewrite fmap_cons, join_cons by (by destruct cs). rewrite <- !(assoc_L (++)). rewrite split_next.
    + rewrite IH by done. destruct cs; [done|]. done.
    + by destruct (contains_command c [32; 124] Hc) as [-> _].
Qed.

(** ** C34 *)

(** The stages of a written line, when nothing fails. *)
Lemma stages_line inc w cmds r k m :
  fine w -> cmds <> [] -> Forall command cmds -> good_redir r ->
  let '(ok, acts, n, m') := stages inc w k (pieces cmds r) m in
  ok = true /\ n = (k + length cmds)%nat /\
  started acts = imap (fun j c => (default [] (head c), tail c, in_of (k + j), if (S j =? length cmds)%nat then out_of r else Piped)) cmds /\
  opened acts = (match r with None => [] | Some (app, f) => [(f, app)] end) /\ killed acts = [] /\
  m' = match r with None => m | Some (_, f) => created f m end.
Proof.
  intros (Hop & Hpi & Hsp & Hdr) Hn Hc Hr. revert k m. induction Hc as [|c cs Hc Hcs IH]; intros k m; [done|].
  assert (exists p a, c = p :: a) as (p & a & Epa).
  { destruct Hc as [Hc _]. destruct c; [done|eauto]. }
  assert (match k with O => false | S _ => drops w k end = false) as Hd by (destruct k; done).
  assert (match k with O => Inherit | S k' => if can_pipe w k' then FromChild k' else Inherit end = in_of k) as Hi.
  { destruct k; [done|]. cbn. by rewrite Hpi. }
  destruct (decide (cs = [])) as [->|Hcn].
  - cbn [pieces stages]. destruct r as [[app f]|].
    + destruct (stage_redir inc c app f Hc Hr) as [E1 E2]. rewrite E1, Hop. cbn iota.
      rewrite E2, Epa, Hd, Hi, Hsp. cbn. rewrite Nat.add_0_r. repeat split; lia.
    + cbn [written_redir]. rewrite app_nil_r, (stage_plain inc c Hc). cbn iota.
      rewrite <- (app_nil_r (join [32] c)), (words_command c [] Hc (or_introl eq_refl)), Epa, Hd, Hi, Hsp.
      cbn. rewrite Nat.add_0_r. repeat split; lia.
  - assert (pieces (c :: cs) r = join [32] c :: pieces cs r) as -> by (by destruct cs).
    cbn [stages]. rewrite (stage_plain inc c Hc). cbn iota.
    rewrite <- (app_nil_r (join [32] c)), (words_command c [] Hc (or_introl eq_refl)), Epa, Hd, Hi, Hsp.
    cbn [negb]. specialize (IH Hcn (S k) m). destruct (stages inc w (S k) (pieces cs r) m) as [[[ok acts] n] m'].
    destruct IH as (-> & -> & E1 & E2 & E3 & E4). repeat split.
    + cbn. lia.
    + cbn [app started omap list_omap]. rewrite imap_cons. fold (started acts). rewrite E1. f_equal.
      * cbn [head tail default length]. rewrite Nat.add_0_r. destruct cs; [done|]. done.
      * apply imap_ext. intros j x _. cbn. by rewrite Nat.add_succ_r.
    + exact E2.
    + exact E3.
    + exact E4.
Qed.

(** C34: a written line starts exactly the written programs with the written
    arguments, each reading from the one before; the file is opened once. *)
Theorem C34_pipeline inc w cmds r m :
  fine w -> cmds <> [] -> Forall command cmds -> good_redir r ->
  let '(ok, acts, n, m') := parse_and_run inc w (written_line cmds r) m in
  ok = true /\ n = length cmds /\ started acts = expected cmds r /\
  opened acts = (match r with None => [] | Some (app, f) => [(f, app)] end) /\ killed acts = [] /\
  m' = match r with None => m | Some (_, f) => created f m end.
Proof.
  intros Hw Hn Hc Hr. unfold parse_and_run. rewrite split_line by done.
  pose proof (stages_line inc w cmds r 0 m Hw Hn Hc Hr) as H.
  destruct (stages inc w 0 (pieces cmds r) m) as [[[ok acts] n] m'].
  destruct H as (-> & -> & E1 & E2 & E3 & E4). rewrite app_nil_r. done.
Qed.
Print Assumptions C34_pipeline.

(** The same in any world: what is attempted is a prefix of what is written. *)
Definition attempted (acts : list act) : list (text * list text * sout) :=
  omap (fun a => match a with ASpawn p a _ o _ => Some (p, a, o) | _ => None end) acts.
Definition expected_outs (cmds : list (list text)) (r : redir) : list (text * list text * sout) :=
  (fun x => (x.1.1.1, x.1.1.2, x.2)) <$> expected cmds r.

Fixpoint outs (cmds : list (list text)) (r : redir) : list (text * list text * sout) :=
  match cmds with
  | [] => []
  | [c] => [(default [] (head c), tail c, out_of r)]
  | c :: cs => (default [] (head c), tail c, Piped) :: outs cs r
  end.
Lemma outs_expected cmds r : expected_outs cmds r = outs cmds r.
Proof.
  unfold expected_outs, expected.
  assert (forall f : nat -> sin, (fun x : text * list text * sin * sout => (x.1.1.1, x.1.1.2, x.2)) <$>
    imap (fun k c => (default [] (head c), tail c, f k, if (S k =? length cmds)%nat then out_of r else Piped)) cmds = outs cmds r) as H; [|apply H].
  induction cmds as [|c cs IH]; intros f; [done|]. rewrite imap_cons, fmap_cons. cbn [fst snd length].
  destruct (decide (cs = [])) as [->|Hc]; [done|].
  assert (outs (c :: cs) r = (default [] (head c), tail c, Piped) :: outs cs r) as -> by (by destruct cs).
  f_equal; [by destruct cs|]. rewrite <- (IH (fun k => f (S k))). f_equal. 
Qed.

Lemma stages_attempt inc w cmds r k m :
  cmds <> [] -> Forall command cmds -> good_redir r ->
  attempted (stages inc w k (pieces cmds r) m).1.1.2 `prefix_of` outs cmds r.
Proof.
  intros Hn Hc Hr. revert k m. induction Hc as [|c cs Hc Hcs IH]; intros k m; [done|].
  assert (exists p a, c = p :: a) as (p & a & Epa).
  { destruct Hc as [Hc _]. destruct c; [done|eauto]. }
  destruct (decide (cs = [])) as [->|Hcn].
  - cbn [pieces stages outs]. destruct r as [[app f]|].
    + destruct (stage_redir inc c app f Hc Hr) as [E1 E2]. rewrite E1.
      destruct (can_open w f); cbn iota; rewrite E2, Epa;
        destruct (match k with O => false | S _ => drops w k end); cbn; try apply prefix_nil.
      destruct (can_spawn w k); cbn; done.
    + cbn [written_redir]. rewrite app_nil_r, (stage_plain inc c Hc). cbn iota.
      rewrite <- (app_nil_r (join [32] c)), (words_command c [] Hc (or_introl eq_refl)), Epa.
      destruct (match k with O => false | S _ => drops w k end); cbn; try apply prefix_nil.
      destruct (can_spawn w k); cbn; done.
  - assert (pieces (c :: cs) r = join [32] c :: pieces cs r) as -> by (by destruct cs).
    assert (outs (c :: cs) r = (default [] (head c), tail c, Piped) :: outs cs r) as -> by (by destruct cs).
    cbn [stages]. rewrite (stage_plain inc c Hc). cbn iota.
    rewrite <- (app_nil_r (join [32] c)), (words_command c [] Hc (or_introl eq_refl)), Epa.
    destruct (match k with O => false | S _ => drops w k end); cbn [negb fst snd attempted omap list_omap]; try apply prefix_nil.
    specialize (IH Hcn (S k) m).
    destruct (can_spawn w k); cbn [negb fst snd attempted omap list_omap Datatypes.app].
    + destruct (stages inc w (S k) (pieces cs r) m) as [[[ok acts] n] m']. cbn [fst snd omap list_omap].
      apply prefix_cons. exact IH.
    + by eexists.
Qed.

(** C34, whatever fails: the programs that are attempted are the first written
    ones, with the written arguments and outputs. *)
Theorem C34_attempts inc w cmds r m :
  cmds <> [] -> Forall command cmds -> good_redir r ->
  attempted (parse_and_run inc w (written_line cmds r) m).1.1.2 `prefix_of` expected_outs cmds r.
Proof.
  intros Hn Hc Hr. unfold parse_and_run. rewrite split_line, outs_expected by done.
  pose proof (stages_attempt inc w cmds r 0 m Hn Hc Hr) as H.
  destruct (stages inc w 0 (pieces cmds r) m) as [[[ok acts] n] m']. cbn [fst snd] in *.
  unfold attempted in *. rewrite omap_app.
  assert (omap (fun a => match a with ASpawn p a _ o _ => Some (p, a, o) | _ => None end) (if ok then [] else kill_all n) = []) as ->.
  { destruct ok; [done|]. unfold kill_all. generalize (seq 0 n). intros l. induction l; done. }
  by rewrite app_nil_r.
Qed.
Print Assumptions C34_attempts.

(** What is written behind a redirection is never looked at: the line does
    what its first part does, whatever follows the next bar and whatever
    fails. A shell would start the commands behind the bar. *)
Lemma pieces_some cmds r : cmds <> [] -> pieces cmds r <> [].
Proof. destruct cmds as [|c [|d cs]]; done. Qed.
Lemma stages_cut inc w cmds ap f rest k m :
  cmds <> [] -> Forall command cmds -> file_name f ->
  stages inc w k (pieces cmds (Some (ap, f)) ++ rest) m = stages inc w k (pieces cmds (Some (ap, f))) m.
Proof.
  intros Hn Hc Hf. revert k m. induction Hc as [|c cs Hc Hcs IH]; intros k m; [done|].
  destruct (decide (cs = [])) as [->|Hcn].
  - cbn [pieces Datatypes.app stages]. destruct (stage_redir inc c ap f Hc Hf) as [-> _]. done.
  - assert (pieces (c :: cs) (Some (ap, f)) = join [32] c :: pieces cs (Some (ap, f))) as -> by (by destruct cs).
    cbn [Datatypes.app stages]. rewrite (stage_plain inc c Hc). cbn iota. rewrite IH by done. done.
Qed.

Lemma line_first cmds r : cmds <> [] -> Forall command cmds -> exists a y, written_line cmds r = a :: y /\ is_space a = false.
Proof.
  intros Hn Hc. destruct Hc as [|c cs Hc Hcs]; [done|]. destruct (command_first _ Hc) as (a & y & E & Ha).
  unfold written_line. destruct cs; cbn [fmap list_fmap join]; rewrite E; cbn [Datatypes.app]; eauto.
Qed.
Lemma line_last cmds r : cmds <> [] -> Forall command cmds -> good_redir r -> exists b z, written_line cmds r = z ++ [b] /\ is_space b = false.
Proof.
  intros Hn Hc Hr. unfold written_line. destruct r as [[app f]|].
  - destruct Hr as (Hf & Ht & _). destruct (trimmed_last _ Hf Ht) as (b & z & -> & Hb).
    exists b. cbn [written_redir]. rewrite !(assoc_L (++)). eauto.
  - cbn [written_redir]. rewrite app_nil_r. clear -Hn Hc.
    induction Hc as [|c cs Hc Hcs IH]; [done|]. destruct (decide (cs = [])) as [->|Hcn].
    + destruct (command_last _ Hc) as (b & z & E & Hb). exists b, z. done.
    + destruct (IH Hcn) as (b & z & E & Hb). exists b. rewrite fmap_cons, join_cons.
      * rewrite E, !(assoc_L (++)). eauto.
      * by destruct cs.
Qed.
Lemma split_two cmds r rest :
  cmds <> [] -> Forall command cmds -> good_redir r -> contains PIPE (written_redir r ++ [32; 124]) = false ->
  split PIPE (written_line cmds r ++ PIPE ++ rest) = pieces cmds r ++ split PIPE rest.
Proof.
  intros Hn Hc Hr Hp. unfold written_line, split. induction Hc as [|c cs Hc Hcs IH]; [done|].
  destruct (decide (cs = [])) as [->|Hcn].
  - cbn [fmap list_fmap join pieces Datatypes.app]. rewrite split_next; [done|].
    rewrite <- (assoc_L (++)). destruct (contains_command c (written_redir r ++ [32; 124]) Hc) as [-> _]; [|done].
    destruct r as [[app f]|]; done.
  - rewrite fmap_cons, join_cons by (by destruct cs). rewrite <- !(assoc_L (++)). rewrite split_next.
    + rewrite <- (assoc_L (++)) in IH. rewrite IH by done. destruct cs; [done|]. done.
    + by destruct (contains_command c [32; 124] Hc) as [-> _].
Qed.

Lemma no_bar x : ~ (124 ∈ x) -> contains PIPE (x ++ [32; 124]) = false.
Proof.
  induction x as [|c x IH]; intros H; [done|]. rewrite not_elem_of_cons in H. destruct H as [Hc Hx].
  change ((c :: x) ++ [32; 124]) with (c :: (x ++ [32; 124])). cbn [contains]. rewrite IH by done. rewrite orb_false_r.
  cbn [starts_with PIPE]. destruct x as [|d x]; cbn [Datatypes.app]; [by rewrite andb_false_r|].
  rewrite not_elem_of_cons in Hx. destruct Hx as [Hd _]. destruct (N.eqb_spec 124 d); [done|]. by rewrite andb_false_r.
Qed.

Theorem C34_behind_redirection inc w cmds ap f cmds2 r2 m :
  cmds <> [] -> Forall command cmds -> file_name f -> ~ (124 ∈ f) ->
  cmds2 <> [] -> Forall command cmds2 -> good_redir r2 ->
  parse_and_run inc w (written_line cmds (Some (ap, f)) ++ PIPE ++ written_line cmds2 r2) m =
  parse_and_run inc w (written_line cmds (Some (ap, f))) m.
Proof.
  intros Hn Hc Hf Hb Hn2 Hc2 Hr2.
  destruct (line_first cmds (Some (ap, f)) Hn Hc) as (a & y & Ea & Ha).
  destruct (line_last cmds2 r2 Hn2 Hc2 Hr2) as (b & z & Ez & Hz).
  assert (trim (written_line cmds (Some (ap, f)) ++ PIPE ++ written_line cmds2 r2) = written_line cmds (Some (ap, f)) ++ PIPE ++ written_line cmds2 r2) as E.
  { eapply (trim_id _ a _ b); [by rewrite Ea| |done|done]. rewrite Ez, !(assoc_L (++)). done. }
  unfold parse_and_run. rewrite E, split_line by done. rewrite split_two; [|done|done|done|].
  - by rewrite stages_cut.
  - apply no_bar. cbn [written_redir]. rewrite !elem_of_app, !elem_of_list_singleton. destruct ap; unfold GT, GTGT; rewrite ?elem_of_cons, ?elem_of_nil; intuition lia.
Qed.
Print Assumptions C34_behind_redirection.

(** The words are all that matters: the line of the example is read as written. *)
Definition ok_world : world := World (fun _ => true) (fun _ => true) (fun _ => true) (fun _ => false).
Example C34_example inc :
  let cmds := [[txt "cat"; txt "a.txt"]; [txt "grep"; txt "-v"; txt "x|y"]; [txt "wc"]] in
  fine ok_world /\ cmds <> [] /\ Forall command cmds /\ good_redir (Some (true, txt "my file")) /\
  written_line cmds (Some (true, txt "my file")) = txt "cat a.txt | grep -v x|y | wc >> my file" /\
  started (parse_and_run inc ok_world (txt "cat a.txt | grep -v x|y | wc >> my file") ∅).1.1.2 =
    [(txt "cat", [txt "a.txt"], Inherit, Piped); (txt "grep", [txt "-v"; txt "x|y"], FromChild 0, Piped);
     (txt "wc", [], FromChild 1, ToFile (txt "my file") true)].
Proof.
  assert (forall l, forallb (fun c => negb (is_space c) && negb (c =? 62)) l = true ->
    Forall (fun c => is_space c = false /\ c <> 62) l) as Hw.
  { intros l H. apply Forall_forall. intros x Hx. apply forallb_forall with (x := x) in H; [|by apply elem_of_list_In].
    apply andb_true_iff in H as [H1 H2]. apply negb_true_iff in H1, H2. apply N.eqb_neq in H2. done. }
  cbn zeta. split; [done|]. split; [done|]. split.
  { repeat constructor; try discriminate; apply Hw; vm_compute; reflexivity. }
  split.
  { split; [discriminate|]. split; [vm_compute; reflexivity|]. split; [|vm_compute; reflexivity].
    intros H. apply contains_GT in H. revert H. vm_compute. discriminate. }
  split; [vm_compute; reflexivity|]. destruct inc; vm_compute; reflexivity.
Qed.
Example C34_behind_example :
  started (parse_and_run true ok_world (txt "cat a > f | wc") ∅).1.1.2 = [(txt "cat", [txt "a"], Inherit, ToFile (txt "f") false)] /\
  written_line [[txt "cat"; txt "a"]] (Some (false, txt "f")) ++ PIPE ++ written_line [[txt "wc"]] None = txt "cat a > f | wc" /\
  ~ (124 ∈ txt "f").
Proof.
  split; [vm_compute; reflexivity|]. split; [vm_compute; reflexivity|].
  change (txt "f") with [102]. rewrite elem_of_list_singleton. discriminate.
Qed.

(** ** C35 *)

(** What is in file [f] after the line has run and its last program has written [out]. *)
Definition file_after (inc : bool) (cmds : list (list text)) (r : redir) (m : fs) (out : text) (f : text) : option text :=
  run_line inc ok_world (written_line cmds r) m out !! f.

Lemma run_line_ok inc w cmds r m out :
  fine w -> cmds <> [] -> Forall command cmds -> good_redir r ->
  run_line inc w (written_line cmds r) m out =
  write_out (out_of r) out (match r with None => m | Some (_, f) => created f m end).
Proof.
  intros Hw Hn Hc Hr. unfold run_line. pose proof (C34_pipeline inc w cmds r m Hw Hn Hc Hr) as H.
  destruct (parse_and_run inc w (written_line cmds r) m) as [[[ok acts] n] m'].
  destruct H as (-> & -> & E1 & E2 & E3 & ->).
  assert (last_out acts = last (snd <$> started acts)) as ->.
  { unfold last_out. f_equal. clear. unfold started. induction acts as [|[| ? ? ? ? [] | |] acts IH]; cbn in *; try done. by rewrite IH. }
  rewrite E1. assert (last (snd <$> expected cmds r) = Some (out_of r)) as ->; [|done].
  assert (snd <$> expected cmds r = snd <$> outs cmds r) as ->.
  { rewrite <- outs_expected. unfold expected_outs. rewrite <- list_fmap_compose. done. }
  clear -Hn. induction cmds as [|c cs IH]; [done|]. destruct (decide (cs = [])) as [->|Hc]; [done|].
  assert (outs (c :: cs) r = (default [] (head c), tail c, Piped) :: outs cs r) as -> by (by destruct cs).
  rewrite fmap_cons, last_cons, IH by done. done.
Qed.

Lemma created_lookup f m : default [] (created f m !! f) = default [] (m !! f).
Proof.
  unfold created, fs, text in *. destruct (m !! f) eqn:E; [by rewrite E|]. by rewrite lookup_insert.
Qed.
Lemma created_insert f m (x : text) : <[f := x]> (created f m) = <[f := x]> m.
Proof. unfold created, fs, text in *. destruct (m !! f); [done|]. by rewrite insert_insert. Qed.

(** C35: ">>" leaves the old content followed by the output; other files keep theirs. *)
Theorem C35_append inc w cmds f m out :
  fine w -> cmds <> [] -> Forall command cmds -> file_name f ->
  run_line inc w (written_line cmds (Some (true, f))) m out = <[f := default [] (m !! f) ++ out]> m.
Proof.
  intros Hw Hn Hc Hf. rewrite (run_line_ok inc w cmds (Some (true, f)) m out) by done. cbn [out_of write_out written].
  by rewrite created_lookup, created_insert.
Qed.
Print Assumptions C35_append.

(** C35, as stated: ">" leaves exactly the output. *)
Definition C35_replace : Prop :=
  forall inc w cmds f m out,
  fine w -> cmds <> [] -> Forall command cmds -> file_name f ->
  run_line inc w (written_line cmds (Some (false, f))) m out = <[f := out]> m.

(** What it really leaves: the rest of a longer old content stays behind the output. *)
Theorem C35_overwrite inc w cmds f m out :
  fine w -> cmds <> [] -> Forall command cmds -> file_name f ->
  run_line inc w (written_line cmds (Some (false, f))) m out = <[f := out ++ drop (length out) (default [] (m !! f))]> m.
Proof.
  intros Hw Hn Hc Hf. rewrite (run_line_ok inc w cmds (Some (false, f)) m out) by done. cbn [out_of write_out written].
  by rewrite created_lookup, created_insert.
Qed.
Print Assumptions C35_overwrite.

(** Missing from [C35_replace]: files holding more than the new output. *)
Theorem C35_replace_partial inc w cmds f m out :
  fine w -> cmds <> [] -> Forall command cmds -> file_name f ->
  (length (default [] (m !! f)) <= length out)%nat ->
  run_line inc w (written_line cmds (Some (false, f))) m out = <[f := out]> m.
Proof.
  intros Hw Hn Hc Hf Hl. rewrite C35_overwrite by done. by rewrite drop_ge, app_nil_r.
Qed.
Print Assumptions C35_replace_partial.

(** "echo > f", printing "hi", over a file with "content": "hintent". *)
Lemma simple_ok : Forall command [[txt "echo"]] /\ file_name (txt "f") /\ fine ok_world.
Proof.
  split; [|split; [|done]].
  - repeat constructor; try discriminate; vm_compute; done.
  - split; [discriminate|]. split; [vm_compute; reflexivity|]. split; [|vm_compute; reflexivity].
    intros H. apply contains_GT in H. revert H. vm_compute. discriminate.
Qed.
Theorem C35_replace_refuted : ~ C35_replace.
Proof.
  intros H. destruct simple_ok as (H1 & H2 & H3).
  specialize (H true ok_world [[txt "echo"]] (txt "f") {[ txt "f" := txt "content" ]} (txt "hi") H3 ltac:(done) H1 H2).
  rewrite C35_overwrite in H by done. apply (f_equal (fun x : fs => x !! txt "f")) in H. revert H.
  vm_compute. discriminate.
Qed.
Print Assumptions C35_replace_refuted.
Example C35_example :
  run_line true ok_world (txt "echo > f") {[ txt "f" := txt "content" ]} (txt "hi") !! txt "f" = Some (txt "hintent") /\
  run_line true ok_world (txt "echo >> f") {[ txt "f" := txt "content" ]} (txt "hi") !! txt "f" = Some (txt "contenthi") /\
  run_line true ok_world (txt "echo > f") {[ txt "f" := txt "c" ]} (txt "hi") !! txt "f" = Some (txt "hi").
Proof. repeat split; vm_compute; reflexivity. Qed.

(** ** C36 *)

(** The processes that run after [acts], [n] having been started before; [None] when
    a process is killed or exits that is not running. *)
Fixpoint running_after (n : nat) (live : list nat) (acts : list act) : option (list nat) :=
  match acts with
  | [] => Some live
  | ASpawn _ _ _ _ true :: r => running_after (S n) (live ++ [n]) r
  | AKill k :: r | AExit k :: r =>
      if decide (k ∈ live) then running_after n (filter (fun x => x <> k) live) r else None
  | _ :: r => running_after n live r
  end.

Definition quiet (a : act) : Prop := match a with AKill _ | AExit _ => False | _ => True end.

Lemma stages_shape inc w cmds k m :
  let '(ok, acts, n, _) := stages inc w k cmds m in
  Forall quiet acts /\ n = (k + length (started acts))%nat /\
  (ok = true -> Forall (fun a => match a with ASpawn _ _ _ _ b | AOpen _ _ b => b = true | _ => True end) acts) /\
  (length (attempted acts) <= S (length (started acts)))%nat /\
  (forall pre p a i o post, acts = pre ++ ASpawn p a i o false :: post -> post = []) /\
  (forall j, (k <= j)%nat -> can_spawn w j = false -> (n <= j)%nat) /\
  (forall j, (0 < j)%nat -> (k <= j)%nat -> drops w j = true -> (n <= j)%nat) /\
  (ok = true -> cmds <> [] -> (k < n)%nat).
Proof.
  revert k m. induction cmds as [|c cs IH]; intros k m.
  - cbn. repeat split; try done; try lia. intros pre p a i o post H. by destruct pre.
  - cbn [stages]. destruct (redirect inc c) as [[app f]|] eqn:Er.
    + destruct (can_open w f); cbn iota.
      * destruct (split_whitespace (remove_bracket c)) as [|p a].
        { cbn. repeat split; try done; try lia; [by repeat constructor|].
          intros pre p a i o post H. destruct pre as [|? pre]; [done|]. injection H as _ H. by destruct pre. }
        destruct (match k with O => false | S _ => drops w k end) eqn:Ed; cbn [negb].
        { cbn. repeat split; try done; try lia; [by repeat constructor|].
          intros pre p' a' i o post H. destruct pre as [|? pre]; [done|]. injection H as _ H. by destruct pre. }
        destruct (can_spawn w k) eqn:Es; cbn.
        { repeat split; try done; try lia; try (by repeat constructor).
          - intros pre p' a' i o post H. destruct pre as [|? [|? pre]]; try done. injection H as _ _ H. by destruct pre.
          - intros j Hj Hs. destruct (decide (j = k)) as [->|]; [congruence|lia].
          - intros j H0 Hj Hs. destruct (decide (j = k)) as [->|]; [|lia]. destruct k; [lia|congruence]. }
        { repeat split; try done; try lia; try (by repeat constructor).
          intros pre p' a' i o post H. destruct pre as [|? [|? pre]]; try done.
          + by injection H as _ _ _ _ H.
          + injection H as _ _ H. by destruct pre. }
      * destruct (split_whitespace (remove_bracket c)) as [|p a];
          [|destruct (match k with O => false | S _ => drops w k end) eqn:Ed];
          cbn; (repeat split; try done; try lia; try (by repeat constructor));
          (intros pre p' a' i o post H; destruct pre as [|? pre]; [done|]; injection H as _ H; by destruct pre).
    + cbn iota. destruct (split_whitespace c) as [|p a].
      { cbn. repeat split; try done; try lia. intros pre p a i o post H. by destruct pre. }
      destruct (match k with O => false | S _ => drops w k end) eqn:Ed; cbn [negb].
      { cbn. repeat split; try done; try lia. intros pre p' a' i o post H. by destruct pre. }
      destruct (can_spawn w k) eqn:Es.
      * specialize (IH (S k) m). destruct (stages inc w (S k) cs m) as [[[ok acts] n] m'].
        destruct IH as (H1 & H2 & H3 & H4 & H5 & H6 & H7 & H8).
        cbn [Datatypes.app]. split; [by constructor|]. split; [cbn; fold (started acts); lia|].
        split; [intros Hok; constructor; auto|]. split; [cbn; fold (started acts) (attempted acts); lia|].
        split.
        { intros pre p' a' i o post H. destruct pre as [|? pre]; [done|]. injection H as _ H. by apply (H5 _ _ _ _ _ _ H). }
        split.
        { intros j Hj Hs. destruct (decide (j = k)) as [->|]; [congruence|]. apply H6; [lia|done]. }
        split.
        { intros j H0 Hj Hs. destruct (decide (j = k)) as [->|]; [destruct k; [lia|congruence]|]. apply H7; [lia|lia|done]. }
        intros Hok _. destruct cs; [lia|]. specialize (H8 Hok ltac:(done)). lia.
      * cbn. repeat split; try done; try lia; try (by repeat constructor).
        intros pre p' a' i o post H. destruct pre as [|? pre]; [by injection H as _ _ _ _ H|].
        injection H as _ H. by destruct pre.
Qed.

Lemma running_quiet n live acts r :
  Forall quiet acts ->
  running_after n live (acts ++ r) = running_after (n + length (started acts)) (live ++ seq n (length (started acts))) r.
Proof.
  intros H. revert n live. induction H as [|a acts Ha H IH]; intros n live; cbn [Datatypes.app].
  - cbn. by rewrite Nat.add_0_r, app_nil_r.
  - destruct a as [f ap ok|p a i o ok| |]; try done; cbn [running_after].
    + exact (IH n live).
    + destruct ok; [|exact (IH n live)]. rewrite IH. cbn [started omap list_omap length seq].
      fold (started acts). rewrite <- (assoc_L (++)), Nat.add_succ_r. done.
Qed.

Lemma running_kill n k l r : NoDup (seq k l) -> running_after n (seq k l) ((AKill <$> seq k l) ++ r) = running_after n [] r.
Proof.
  revert k. induction l as [|l IH]; intros k Hd; [done|]. cbn [seq fmap list_fmap Datatypes.app running_after].
  rewrite decide_True by constructor. cbn [seq] in Hd. apply NoDup_cons in Hd as [Hk Hd].
  rewrite filter_cons_False by tauto.
  assert (filter (fun x => x <> k) (seq (S k) l) = seq (S k) l) as ->.
  { clear -Hk. induction (seq (S k) l) as [|x xs IHx]; [done|]. rewrite not_elem_of_cons in Hk.
    rewrite filter_cons_True by (intros ->; tauto). f_equal. apply IHx. tauto. }
  by apply IH.
Qed.

Lemma killed_quiet acts : Forall quiet acts -> killed acts = [].
Proof. induction 1 as [|[] acts Ha H IH]; try done. Qed.
Lemma killed_all l : killed (AKill <$> l) = l.
Proof. induction l as [|x l IH]; [done|]. cbn. f_equal. exact IH. Qed.
Lemma started_all l : started (AKill <$> l) = [].
Proof. induction l; done. Qed.

(** C36: when a stage fails, or the future is dropped, every process that was
    started is killed exactly once and none is left. *)
Theorem C36_failed inc w input m acts n m' :
  parse_and_run inc w input m = (false, acts, n, m') ->
  running_after 0 [] acts = Some [] /\ length (started acts) = n /\ killed acts = seq 0 n.
Proof.
  unfold parse_and_run. pose proof (stages_shape inc w (split PIPE (trim input)) 0 m) as H.
  destruct (stages inc w 0 (split PIPE (trim input)) m) as [[[ok acts'] n'] m''].
  destruct H as (H1 & H2 & _). intros E. injection E as -> <- <- <-. cbn in H2. subst n'.
  unfold kill_all. rewrite running_quiet by done. cbn [Datatypes.app Nat.add].
  rewrite <- (app_nil_r (AKill <$> _)), running_kill by apply NoDup_seq. rewrite app_nil_r.
  unfold started at 2, killed. rewrite !omap_app. fold (started acts') (killed acts').
  change (omap _ (AKill <$> seq 0 (length (started acts')))) with (started (AKill <$> seq 0 (length (started acts')))) at 1.
  change (omap _ (AKill <$> seq 0 (length (started acts')))) with (killed (AKill <$> seq 0 (length (started acts')))).
  rewrite started_all, killed_all, app_nil_r, (killed_quiet _ H1). done.
Qed.
Print Assumptions C36_failed.

Lemma split_some p s : split p s <> [].
Proof.
  unfold split. assert (forall sk acc, split_go p sk acc s <> []) as Hx; [|intros; apply Hx].
  induction s as [|d r IHr]; intros sk acc; [done|]. cbn [split_go].
  destruct sk; [|apply IHr]. destruct (starts_with p (d :: r)); [done|apply IHr].
Qed.

(** C36: when it succeeds, all its processes run: nothing failed and none was killed. *)
Theorem C36_done inc w input m acts n m' :
  parse_and_run inc w input m = (true, acts, n, m') ->
  running_after 0 [] acts = Some (seq 0 n) /\ length (started acts) = n /\ length (attempted acts) = n /\
  killed acts = [] /\ (0 < n)%nat.
Proof.
  unfold parse_and_run. pose proof (stages_shape inc w (split PIPE (trim input)) 0 m) as H.
  destruct (stages inc w 0 (split PIPE (trim input)) m) as [[[ok acts'] n'] m''].
  destruct H as (H1 & H2 & H3 & _ & _ & _ & _ & H8). intros E. injection E as -> <- <- <-. cbn in H2. subst n'.
  rewrite app_nil_r. rewrite <- (app_nil_r acts') at 1. rewrite running_quiet by done. cbn [running_after Datatypes.app].
  split; [done|]. split; [done|]. split; [|split; [by apply killed_quiet|]].
  - specialize (H3 eq_refl). clear -H3. induction H3 as [|[|? ? ? ? []| |] l Hx Hl IH]; cbn in *; auto; try done.
  - apply H8; [done|]. apply split_some.
Qed.
Print Assumptions C36_done.

(** C36: no stage is started after one that cannot be, nor after the future was dropped. *)
Theorem C36_no_later inc w input m :
  let '(ok, acts, n, m') := parse_and_run inc w input m in
  (forall k, can_spawn w k = false -> (length (started acts) <= k)%nat) /\
  (forall k, (0 < k)%nat -> drops w k = true -> (length (started acts) <= k)%nat) /\
  (forall pre p a i o post, acts = pre ++ ASpawn p a i o false :: post -> started post = [] /\ attempted post = []).
Proof.
  unfold parse_and_run. pose proof (stages_shape inc w (split PIPE (trim input)) 0 m) as H.
  destruct (stages inc w 0 (split PIPE (trim input)) m) as [[[ok acts'] n'] m''].
  destruct H as (H1 & H2 & H3 & _ & H5 & H6 & H7 & _). cbn in H2. subst n'.
  assert (length (started (acts' ++ (if ok then [] else kill_all (length (started acts'))))) = length (started acts')) as El.
  { unfold started at 1. rewrite omap_app. fold (started acts'). rewrite app_length. destruct ok; cbn; [lia|].
    unfold kill_all. change (omap _ (AKill <$> _)) with (started (AKill <$> seq 0 (length (started acts')))).
    rewrite started_all. cbn. lia. }
  rewrite El. split; [|split].
  - intros k Hk. apply H6; [lia|done].
  - intros k H0 Hk. apply H7; [done|lia|done].
  - intros pre p a i o post E. 
    assert (started post = [] /\ attempted post = []) as ?; [|done].
    assert (forall l : list nat, started (AKill <$> l) = [] /\ attempted (AKill <$> l) = []) as Hk.
    { intros l. induction l; done. }
    apply app_eq_app in E as (z & [[E1 E2]|[E1 E2]]).
    + destruct z as [|x z].
      * exfalso. destruct ok; cbn in E2; [done|]. unfold kill_all in E2. destruct (seq 0 _); done.
      * injection E2 as <- E2. specialize (H5 _ _ _ _ _ _ E1). subst z. cbn in E2. subst post.
        destruct ok; [done|]. apply Hk.
    + exfalso. assert (ASpawn p a i o false ∈ (if ok then [] else kill_all (length (started acts')))) as Hx.
      { rewrite E2. rewrite elem_of_app. right. constructor. }
      destruct ok; [by apply elem_of_nil in Hx|]. unfold kill_all in Hx. apply elem_of_list_fmap in Hx as (? & ? & _). done.
Qed.
Print Assumptions C36_no_later.

(** C36 for a written line: if exactly stage [j] cannot be started, the stages
    before it are started as written and killed again, and that is all. *)
Lemma stages_fail inc w cmds r k j m :
  (forall f, can_open w f = true) -> (forall i, can_pipe w i = true) -> (forall i, drops w i = false) ->
  (forall i, (i < k + j)%nat -> can_spawn w i = true) -> can_spawn w (k + j)%nat = false ->
  (j < length cmds)%nat -> Forall command cmds -> good_redir r ->
  let '(ok, acts, n, m') := stages inc w k (pieces cmds r) m in
  ok = false /\ n = (k + j)%nat /\
  started acts = take j (imap (fun i c => (default [] (head c), tail c, in_of (k + i), if (S i =? length cmds)%nat then out_of r else Piped)) cmds).
Proof.
  intros Hop Hpi Hdr Hsp Hf Hj Hc Hr. revert k j m Hsp Hf Hj. induction Hc as [|c cs Hc Hcs IH]; intros k j m Hsp Hf Hj; [cbn in Hj; lia|].
  assert (exists p a, c = p :: a) as (p & a & Epa).
  { destruct Hc as [Hc _]. destruct c; [done|eauto]. }
  assert (match k with O => false | S _ => drops w k end = false) as Hd by (destruct k; done).
  assert (match k with O => Inherit | S k' => if can_pipe w k' then FromChild k' else Inherit end = in_of k) as Hi.
  { destruct k; [done|]. cbn. by rewrite Hpi. }
  destruct (decide (cs = [])) as [->|Hcn].
  - cbn in Hj. assert (j = 0%nat) as -> by lia. rewrite Nat.add_0_r in *. cbn [pieces stages]. destruct r as [[app f]|].
    + destruct (stage_redir inc c app f Hc Hr) as [E1 E2]. rewrite E1, Hop. cbn iota.
      rewrite E2, Epa, Hd, Hi, Hf. cbn. done.
    + cbn [written_redir]. rewrite app_nil_r, (stage_plain inc c Hc). cbn iota.
      rewrite <- (app_nil_r (join [32] c)), (words_command c [] Hc (or_introl eq_refl)), Epa, Hd, Hi, Hf.
      cbn. done.
  - assert (pieces (c :: cs) r = join [32] c :: pieces cs r) as -> by (by destruct cs).
    cbn [stages]. rewrite (stage_plain inc c Hc). cbn iota.
    rewrite <- (app_nil_r (join [32] c)), (words_command c [] Hc (or_introl eq_refl)), Epa, Hd, Hi.
    destruct j as [|j].
    + rewrite Nat.add_0_r in *. rewrite Hf. cbn. done.
    + rewrite Hsp by lia. cbn [negb]. cbn [length] in Hj.
      specialize (IH (S k) j m). rewrite Nat.add_succ_comm in IH. specialize (IH Hsp Hf ltac:(lia)).
      destruct (stages inc w (S k) (pieces cs r) m) as [[[ok acts] n] m'].
      destruct IH as (-> & -> & E1). split; [done|]. split; [done|].
      cbn [Datatypes.app started omap list_omap]. rewrite imap_cons. fold (started acts). cbn [take]. rewrite E1. f_equal.
      * cbn [head tail default length]. rewrite Nat.add_0_r. destruct cs; [done|]. done.
      * f_equal. apply imap_ext. intros i x _. cbn. by rewrite Nat.add_succ_r.
Qed.

Theorem C36_written inc w cmds r j m :
  (forall f, can_open w f = true) -> (forall i, can_pipe w i = true) -> (forall i, drops w i = false) ->
  (forall i, (i < j)%nat -> can_spawn w i = true) -> can_spawn w j = false ->
  (j < length cmds)%nat -> Forall command cmds -> good_redir r ->
  let '(ok, acts, n, _) := parse_and_run inc w (written_line cmds r) m in
  ok = false /\ started acts = take j (expected cmds r) /\ killed acts = seq 0 j /\ running_after 0 [] acts = Some [].
Proof.
  intros Hop Hpi Hdr Hsp Hf Hj Hc Hr.
  destruct (parse_and_run inc w (written_line cmds r) m) as [[[ok acts] n] m'] eqn:E.
  pose proof E as E'. unfold parse_and_run in E. rewrite split_line in E; [|by intros ->; cbn in Hj; lia|done|done].
  pose proof (stages_fail inc w cmds r 0 j m Hop Hpi Hdr Hsp Hf Hj Hc Hr) as H.
  destruct (stages inc w 0 (pieces cmds r) m) as [[[ok' acts'] n'] m''].
  destruct H as (-> & -> & E1). injection E as <- <- <- <-.
  destruct (C36_failed _ _ _ _ _ _ _ E') as (H1 & H2 & H3). split; [done|]. split; [|done].
  unfold started at 1. rewrite omap_app. fold (started acts'). rewrite E1. unfold kill_all.
  change (omap _ (AKill <$> _)) with (started (AKill <$> seq 0 (0 + j))). rewrite started_all, app_nil_r. done.
Qed.
Print Assumptions C36_written.

(** "a | b | c" where c cannot be started; and where the future is dropped before c. *)
Example C36_example :
  let w := World (fun _ => true) (fun _ => true) (fun k => (k <? 2)%nat) (fun _ => false) in
  let w' := World (fun _ => true) (fun _ => true) (fun _ => true) (fun k => (k =? 2)%nat) in
  (parse_and_run true w (txt "a | b | c") ∅).1.1.2 =
    [ASpawn (txt "a") [] Inherit Piped true; ASpawn (txt "b") [] (FromChild 0) Piped true;
     ASpawn (txt "c") [] (FromChild 1) Piped false; AKill 0; AKill 1] /\
  (parse_and_run true w' (txt "a | b | c") ∅).1.1.2 =
    [ASpawn (txt "a") [] Inherit Piped true; ASpawn (txt "b") [] (FromChild 0) Piped true; AKill 0; AKill 1] /\
  (parse_and_run true ok_world (txt "a | b | c") ∅).1.1.1 = true.
Proof. repeat split; vm_compute; reflexivity. Qed.

(** ** C50: the two ways to find the file of a redirection *)

(** C50, as stated: both variants do the same. *)
Definition C50_same : Prop := forall w input m, parse_and_run true w input m = parse_and_run false w input m.

(** They do, unless the text of some stage ends with its last bracket. *)
Definition ends_bracket (c : text) : bool := match last (trim c) with Some x => x =? 62 | None => false end.

Lemma last_match_end p s : p <> [] -> last_match p s = Some [] -> exists z, s = z ++ p.
Proof.
  intros Hp. induction s as [|c s IH]; [done|]. cbn [last_match]. destruct (last_match p s) eqn:E.
  - intros [= ->]. destruct (IH eq_refl) as [z ->]. by exists (c :: z).
  - destruct (starts_with p (c :: s)) eqn:Es; [|done]. intros [= Hd]. exists [].
    cbn [Datatypes.app]. clear -Es Hd. revert Es Hd. generalize (c :: s). clear c s. intros l. revert l.
    induction p as [|a p IHp]; intros l Es Hd; [exact Hd|].
    destruct l as [|b l]; [done|]. cbn in Es, Hd. apply andb_true_iff in Es as [Ea Es]. apply N.eqb_eq in Ea. subst b.
    f_equal. by apply IHp.
Qed.

Lemma last_piece_same p s : p = GT \/ p = GTGT -> (match last s with Some x => x =? 62 | None => false end) = false ->
  last_piece true p s = last_piece false p s.
Proof.
  intros Hp Hl. cbn [last_piece]. unfold inclusive_last, rsplit_first.
  destruct (last_match p s) as [[|x l]|] eqn:E; try done. exfalso.
  apply last_match_end in E as [z ->]; [|by destruct Hp as [-> | ->]].
  destruct Hp as [-> | ->].
  - change (z ++ GT) with (z ++ [62]) in Hl. rewrite last_snoc in Hl. done.
  - change (z ++ GTGT) with (z ++ [62] ++ [62]) in Hl. rewrite (assoc_L (++)), last_snoc in Hl. done.
Qed.

Theorem C50_same_partial w input m :
  Forall (fun c => ends_bracket c = false) (split PIPE (trim input)) ->
  parse_and_run true w input m = parse_and_run false w input m.
Proof.
  intros H. unfold parse_and_run. assert (forall k, stages true w k (split PIPE (trim input)) m = stages false w k (split PIPE (trim input)) m) as E;
    [|by rewrite E].
  revert m. induction H as [|c cs Hc Hcs IH]; intros m k; [done|]. cbn [stages].
  assert (redirect true c = redirect false c) as ->.
  { unfold redirect. rewrite !last_piece_same by auto. done. }
  destruct (redirect false c) as [[ap f]|]; [done|]. rewrite IH. done.
Qed.
Print Assumptions C50_same_partial.

(** "a >" opens the file "a >" in one variant and the empty name in the other. *)
Theorem C50_same_refuted : ~ C50_same.
Proof.
  intros H. specialize (H ok_world (txt "a >") ∅). apply (f_equal (fun x => opened x.1.1.2)) in H.
  revert H. vm_compute. discriminate.
Qed.
Print Assumptions C50_same_refuted.
Example C50_example :
  Forall (fun c => ends_bracket c = false) (split PIPE (trim (txt "a | b > f"))) /\
  opened (parse_and_run true ok_world (txt "a >") ∅).1.1.2 = [(txt "a >", false)] /\
  opened (parse_and_run false ok_world (txt "a >") ∅).1.1.2 = [(txt "", false)].
Proof. split; [repeat constructor; vm_compute; reflexivity|]. split; vm_compute; reflexivity. Qed.

(** ** C51: the processes of a cancelled task *)

(** C51, as stated: when a process task is over, by its end or by its
    cancellation, none of its processes runs on. *)
Definition C51_none_left : Prop :=
  forall inc w input m e, running_after 0 [] (process_task inc w input m e) = Some [].

Lemma kill_but_last n k l r : NoDup (seq k (S l)) ->
  running_after n (seq k (S l)) ((AKill <$> seq k l) ++ r) = running_after n [(k + l)%nat] r.
Proof.
  revert k. induction l as [|l IH]; intros k Hd; [cbn [seq fmap list_fmap Datatypes.app]; by rewrite Nat.add_0_r|].
  change (seq k (S (S l))) with (k :: seq (S k) (S l)) in *. change (seq k (S l)) with (k :: seq (S k) l).
  cbn [fmap list_fmap Datatypes.app running_after].
  rewrite decide_True by constructor. apply NoDup_cons in Hd as [Hk Hd].
  rewrite filter_cons_False by tauto.
  assert (filter (fun x => x <> k) (seq (S k) (S l)) = seq (S k) (S l)) as ->.
  { clear -Hk. induction (seq (S k) (S l)) as [|x xs IHx]; [done|]. rewrite not_elem_of_cons in Hk.
    rewrite filter_cons_True by (intros ->; tauto). f_equal. apply IHx. tauto. }
  rewrite IH by done. by rewrite Nat.add_succ_comm.
Qed.

Lemma running_app n live a b live' :
  running_after n live a = Some live' -> running_after n live (a ++ b) = running_after (n + length (started a)) live' b.
Proof.
  revert n live. induction a as [|x a IH]; intros n live.
  - cbn. intros [= ->]. by rewrite Nat.add_0_r.
  - destruct x as [| p ar i o []| |]; cbn [running_after Datatypes.app]; intros H.
    + exact (IH _ _ H).
    + rewrite (IH _ _ H). cbn [started omap list_omap length]. fold (started a). by rewrite Nat.add_succ_r.
    + exact (IH _ _ H).
    + destruct (decide (k ∈ live)); [|done]. exact (IH _ _ H).
    + destruct (decide (k ∈ live)); [|done]. exact (IH _ _ H).
Qed.

(** Missing from [C51_none_left]: the last process of a line that was started
    completely and is then cancelled. *)
Theorem C51_none_left_partial inc w input m e :
  e = Exited \/ (parse_and_run inc w input m).1.1.1 = false ->
  running_after 0 [] (process_task inc w input m e) = Some [].
Proof.
  unfold process_task. destruct (parse_and_run inc w input m) as [[[ok acts] n] m'] eqn:E. cbn [fst snd].
  destruct ok; [|intros _; by apply C36_failed in E as [? _]].
  intros [-> | ?]; [|done]. apply C36_done in E as (H1 & H2 & _ & _ & Hn).
  rewrite (running_app _ _ _ _ _ H1). cbn [Datatypes.app running_after]. destruct n as [|n]; [lia|].
  cbn [pred]. rewrite decide_True by (apply elem_of_seq; lia).
  assert (filter (fun x => x <> n) (seq 0 (S n)) = seq 0 n) as ->.
  { rewrite seq_S, filter_app, filter_cons_False by tauto. cbn [Nat.add]. rewrite app_nil_r.
    assert (Forall (fun x => x <> n) (seq 0 n)) as Hf.
    { apply Forall_forall. intros x Hx. apply elem_of_seq in Hx. lia. }
    induction Hf as [|x l Hx Hl IHl]; [done|]. rewrite filter_cons_True by done. by f_equal. }
  unfold kill_all. rewrite <- (app_nil_r (AKill <$> _)), running_kill by apply NoDup_seq. done.
Qed.
Print Assumptions C51_none_left_partial.

(** What a cancellation leaves: exactly the last process. *)
Theorem C51_cancelled inc w input m acts n m' :
  parse_and_run inc w input m = (true, acts, n, m') ->
  running_after 0 [] (process_task inc w input m Cancelled) = Some [pred n].
Proof.
  intros E. unfold process_task. rewrite E. apply C36_done in E as (H1 & H2 & _ & _ & Hn).
  rewrite (running_app _ _ _ _ _ H1). cbn [Datatypes.app]. destruct n as [|n]; [lia|].
  cbn [pred]. unfold kill_all. rewrite <- (app_nil_r (AKill <$> _)), kill_but_last by apply NoDup_seq. done.
Qed.
Print Assumptions C51_cancelled.

Theorem C51_none_left_refuted : ~ C51_none_left.
Proof.
  intros H. specialize (H true ok_world (txt "yes | sleep 9") ∅ Cancelled). revert H. vm_compute. discriminate.
Qed.
Print Assumptions C51_none_left_refuted.
Example C51_example :
  (parse_and_run true ok_world (txt "yes | sleep 9") ∅).1.1.1 = true /\
  running_after 0 [] (process_task true ok_world (txt "yes | sleep 9") ∅ Cancelled) = Some [1%nat] /\
  running_after 0 [] (process_task true ok_world (txt "yes | sleep 9") ∅ Exited) = Some [].
Proof. repeat split; vm_compute; reflexivity. Qed.
