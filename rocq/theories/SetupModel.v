(** Model of [vfc_ci setup] (src/tools/ci/setup.py) on a git repository, and of the jobs that the workflow it installs runs
    (src/tools/ci/workflow_templates/).

    Git itself is modelled: a branch is the list of the commits reachable from its tip, tip first ([] : no such branch);
    a commit is an identifier and a tree; trees, the index and the work tree are finite maps from paths to contents.
    GitPython: [Remote.push] raises only when git printed no status line for a reference; a reference that the server
    refused is an entry of the returned list, which setup.py does not read (L131, L146).
    Not modelled: file modes, submodules, hooks on the client, remotes other than origin, a detached head, [input]. *)
From Coq Require Import Ascii String ZArith List Bool Lia.
From Verif Require Import Text.
Import ListNotations.
Open Scope Z_scope.

Definition name := list Z.
Definition name_dec : forall a b : name, {a = b} + {a <> b} := list_eq_dec Z.eq_dec.

Inductive host := Github | Gitlab.
(** the content of a file. A rendered template keeps what it was rendered with; [url] is the remote_url of the gitlab template *)
Inductive content :=
| File : list Z -> content
| Workflow : host -> name -> name -> list Z -> content
| Readme : name -> name -> content.
Definition content_dec : forall a b : content, {a = b} + {a <> b}.
Proof. decide equality; try apply name_dec; decide equality. Defined.
Definition found_dec : forall a b : option content, {a = b} + {a <> b}.
Proof. decide equality; apply content_dec. Defined.

Definition tree := list (name * content).
Fixpoint get (t : tree) (p : name) : option content :=
  match t with [] => None | (q, c) :: t' => if name_dec q p then Some c else get t' p end.
Definition put (t : tree) (p : name) (c : content) : tree := (p, c) :: t.
Definition has (t : tree) (p : name) : bool := match get t p with Some _ => true | None => false end.
Definition keep (f : name -> bool) (t : tree) : tree := filter (fun x => f (fst x)) t.

Record commit := { c_id : Z; c_tree : tree }.
Definition history := list commit.
Definition tip (h : history) : tree := match h with [] => [] | c :: _ => c_tree c end.
Definition ids (h : history) : list Z := map c_id h.
Definition knows (h : history) (i : Z) : bool := existsb (Z.eqb i) (ids h).

Record repo := {
  head : name;                     (* the branch HEAD refers to *)
  heads : name -> history;         (* local branches *)
  tracking : name -> history;      (* origin/b in the clone *)
  server : name -> history;        (* branches of the origin *)
  index : tree;
  work : tree                      (* files under the root of the repository *)
}.
Definition upd (f : name -> history) (b : name) (h : history) : name -> history := fun x => if name_dec x b then h else f x.

(** what git and the server decide and the program cannot: which paths .gitignore excludes, the upstream of each branch,
    and the answer to each of the two pushes (None: git push ends without a status line, GitPython raises) *)
Record environment := {
  ignored : name -> bool;
  upstream : name -> option name;
  fetch_works : bool;
  answer_dev : option bool;
  answer_ci : option bool;
  fresh_dev : Z;                   (* identifiers of the two commits *)
  fresh_ci : Z;
  origin_url : list Z
}.

(** a statement of the program: None is an exception *)
Definition statement := repo -> option repo.

(** repo.remotes.origin.fetch() L100 *)
Definition fetch (e : environment) : statement := fun r =>
  if fetch_works e
  then Some {| head := head r; heads := heads r; tracking := server r; server := server r; index := index r; work := work r |}
  else None.
(** repo.is_dirty() L103: git diff --cached and git diff; its parameter untracked_files is False by default *)
Definition dirty (r : repo) : bool :=
  existsb (fun p => if found_dec (get (index r) p) (get (tip (heads r (head r))) p) then false else true)
          (map fst (index r) ++ map fst (tip (heads r (head r))))
  || existsb (fun p => if found_dec (get (work r) p) (get (index r) p) then false else true) (map fst (index r)).
Definition check_clean : statement := fun r => if dirty r then None else Some r.
(** dev_branch.tracking_branch() L109-115 *)
Definition check_upstream (e : environment) (dev : name) : statement := fun r =>
  match upstream e dev with Some _ => Some r | None => None end.
(** list(repo.iter_commits("dev...origin/dev")) == [] L118-123: three dots, the commits of either side that the other lacks *)
Definition check_sync (e : environment) (dev : name) : statement := fun r =>
  match upstream e dev with
  | None => None
  | Some u => if forallb (knows (tracking r u)) (ids (heads r dev)) && forallb (knows (heads r dev)) (ids (tracking r u))
              then Some r else None
  end.

Definition set_work (r : repo) (w : tree) : repo :=
  {| head := head r; heads := heads r; tracking := tracking r; server := server r; index := index r; work := w |}.
Definition set_index (r : repo) (i : tree) : repo :=
  {| head := head r; heads := heads r; tracking := tracking r; server := server r; index := i; work := work r |}.

(** str.replace(old, "") *)
Fixpoint starts (p l : list Z) : bool :=
  match p, l with [], _ => true | _, [] => false | x :: p', y :: l' => (x =? y) && starts p' l' end.
Fixpoint remove_all (fuel : nat) (old l : list Z) : list Z :=
  match fuel, l with
  | O, _ | _, [] => l
  | S f, x :: l' => if starts old l then remove_all f old (skipn (length old) l) else x :: remove_all f old l'
  end.
(** L74-76 *)
Definition bare_url (url : list Z) : list Z :=
  let u := remove_all (length url) (bytes "http://") url in remove_all (length u) (bytes "https://") u.
(** gen_workflow L47-88: the name of the file and what it is rendered with *)
Definition workflow_path (h : host) : name :=
  match h with Github => bytes ".github/workflows/vfc_test_workflow.yml" | Gitlab => bytes ".gitlab-ci.yml" end.
Definition ci_name (dev : name) : name := bytes "vfc_ci_" ++ dev.   (* L127 *)
Definition workflow (e : environment) (h : host) (dev : name) : content :=
  Workflow h dev (ci_name dev) (match h with Github => [] | Gitlab => bare_url (origin_url e) end).
Definition gen_workflow (e : environment) (h : host) (dev : name) : statement := fun r =>
  Some (set_work r (put (work r) (workflow_path h) (workflow e h dev))).
(** repo.git.add(".") L129, from the root: every file that is tracked or not ignored; deletions too *)
Definition add_dot (e : environment) : statement := fun r =>
  Some (set_index r (keep (fun p => has (index r) p || negb (ignored e p)) (work r))).
(** repo.index.commit L130 and L142-145: parent_commits=None means the commit HEAD refers to, none if the branch does not exist *)
Definition commit_index (i : Z) : statement := fun r =>
  Some {| head := head r; heads := upd (heads r) (head r) ({| c_id := i; c_tree := index r |} :: heads r (head r));
          tracking := tracking r; server := server r; index := index r; work := work r |}.
(** a push of the local branch b to the same name: refused when the server's tip is not one of its commits, or by the server *)
Definition fast_forward (old new : history) : bool := match old with [] => true | c :: _ => knows new (c_id c) end.
Definition push (answer : option bool) (b : name) : statement := fun r =>
  match answer with
  | None => None
  | Some ok =>
      if ok && fast_forward (server r b) (heads r b)
      then Some {| head := head r; heads := heads r; tracking := upd (tracking r) b (heads r b);
                   server := upd (server r) b (heads r b); index := index r; work := work r |}
      else Some r
  end.
(** repo.remote(name="origin").push() L131: push.default is simple, git stops when the upstream has another name *)
Definition push_dev (e : environment) (dev : name) : statement := fun r =>
  match upstream e dev with
  | None => None
  | Some u => if name_dec u dev then push (answer_dev e) dev r else None
  end.
(** repo.head.reference = git.Head(repo, "refs/heads/" + ci_branch_name) L136 *)
Definition set_head (b : name) : statement := fun r =>
  Some {| head := b; heads := heads r; tracking := tracking r; server := server r; index := index r; work := work r |}.
(** repo.index.remove at L138: git rm --cached of every path; an error if there is none. The work tree is untouched. *)
Definition remove_index : statement := fun r => match index r with [] => None | _ => Some (set_index r []) end.
(** gen_readme L33-44 *)
Definition readme : name := bytes "README.md".
Definition gen_readme (dev : name) : statement := fun r =>
  Some (set_work r (put (work r) readme (Readme dev (ci_name dev)))).
(** repo.index.add L140: also an ignored file *)
Definition add_readme : statement := fun r =>
  match get (work r) readme with Some c => Some (set_index r (put (index r) readme c)) | None => None end.
(** repo.git.checkout(dev_branch_name, force=True) L149 *)
Definition checkout (b : name) : statement := fun r =>
  match heads r b with
  | [] => None
  | c :: _ => Some {| head := b; heads := heads r; tracking := tracking r; server := server r; index := c_tree c;
                      work := c_tree c ++ keep (fun p => negb (has (index r) p)) (work r) |}
  end.

(** run L94-149, one observable effect per statement *)
Definition setup (e : environment) (h : host) (dev : name) : list statement :=
  [ fetch e; check_clean; check_upstream e dev; check_sync e dev;
    gen_workflow e h dev; add_dot e; commit_index (fresh_dev e); push_dev e dev;
    set_head (ci_name dev); remove_index; gen_readme dev; add_readme; commit_index (fresh_ci e);
    push (answer_ci e) (ci_name dev); checkout dev ].
(** the states after each statement; the last one, and whether the messages of L153-168 are printed *)
Fixpoint states (l : list statement) (r : repo) : list repo :=
  r :: match l with [] => [] | s :: l' => match s r with Some r' => states l' r' | None => [] end end.
Fixpoint finish (l : list statement) (r : repo) : repo * bool :=
  match l with [] => (r, true) | s :: l' => match s r with Some r' => finish l' r' | None => (r, false) end end.
Definition run_setup (e : environment) (h : host) (r : repo) : repo * bool := finish (setup e h (head r)) r.
Definition setup_states (e : environment) (h : host) (r : repo) : list repo := states (setup e h (head r)) r.

(** ** The jobs of the workflow: vfc_test_workflow.j2.yml L19-41, gitlab-ci.j2.yml L20-29 *)
(** A job runs the tests, which give one run file, and commits it on the CI branch. The copy of the CI branch it commits on
    is the one of actions/checkout with fetch-depth 0 (github L20-22: before the tests) or of git fetch (gitlab L23: after). *)
Record job := { j_host : host; j_id : Z; j_file : name; j_data : list Z; j_tests_pass : bool }.
Definition run_path (j : job) : name := bytes "vfcruns/" ++ j_file j.
Inductive phase := Waiting | Copied (h : history) | Tested | Ready (h : history) | Success | Failure.
Record world := { ci : history; phases : nat -> phase }.
Definition set_phase (w : world) (k : nat) (p : phase) : world :=
  {| ci := ci w; phases := fun x => if Nat.eqb x k then p else phases w x |}.
(** vfc_ci test -g -r: a non-zero status ends the job *)
Definition test_then (j : job) (p : phase) : phase := if j_tests_pass j then p else Failure.
(** git add, git commit (fails when nothing changes), git push (refused unless a fast-forward: the job fails) *)
Definition upload (w : world) (k : nat) (j : job) (h : history) : world :=
  if found_dec (get (tip h) (run_path j)) (Some (File (j_data j))) then set_phase w k Failure
  else let new := {| c_id := j_id j; c_tree := put (tip h) (run_path j) (File (j_data j)) |} :: h in
       if fast_forward (ci w) new then set_phase {| ci := new; phases := phases w |} k Success
       else set_phase w k Failure.
(** the next step of job k. git checkout of a branch that does not exist fails. *)
Definition job_step (jobs : list job) (w : world) (k : nat) : world :=
  match nth_error jobs k with
  | None => w
  | Some j =>
      match phases w k, j_host j with
      | Waiting, Github => set_phase w k (Copied (ci w))
      | Copied h, _ => set_phase w k (test_then j (match h with [] => Failure | _ => Ready h end))
      | Waiting, Gitlab => set_phase w k (test_then j Tested)
      | Tested, _ => set_phase w k (match ci w with [] => Failure | h => Ready h end)
      | Ready h, _ => upload w k j h
      | Success, _ | Failure, _ => w
      end
  end.
Definition run_jobs (jobs : list job) (schedule : list nat) (w : world) : world := fold_left (job_step jobs) schedule w.
Definition at_start (h : history) : world := {| ci := h; phases := fun _ => Waiting |}.

(** gitlab-ci.j2.yml L16: the address the job pushes to, without the user and the token *)
Definition gitlab_target (url : list Z) : list Z := bare_url url ++ bytes ".git".
