(** File systems, as far as firm uses them (std::fs on Linux). There is no
    code in /repo for this: it models the library calls made in
    firm_mcp/src/resources.rs, firm_mcp/src/tools/*.rs and
    firm_lang/src/workspace/io.rs. Simplifications: no permissions, no full
    disks, no hard links, no special files, no limits on the length of names;
    one process. *)
From Verif Require Export M_Text.

(** The place of a node: names from the root down. *)
Definition place := list str.
Inductive node := File (content : str) | Dir | Link (target : str).
(** The root, the empty place, is a directory and is not listed. *)
Definition fs := list (place * node).

Fixpoint place_eqb (p q : place) : bool :=
  match p, q with
  | [], [] => true
  | a :: p', b :: q' => str_eqb a b && place_eqb p' q'
  | _, _ => false
  end.
Fixpoint entry_at (d : fs) (p : place) : option node :=
  match d with
  | [] => None
  | (q, n) :: d' => if place_eqb q p then Some n else entry_at d' p
  end.
Definition node_at (d : fs) (p : place) : option node :=
  match p with [] => Some Dir | _ => entry_at d p end.
Fixpoint set_node (d : fs) (p : place) (n : node) : fs :=
  match d with
  | [] => [(p, n)]
  | (q, m) :: d' => if place_eqb q p then (q, n) :: d' else (q, m) :: set_node d' p n
  end.
Definition unset_node (d : fs) (p : place) : fs := filter (fun e => negb (place_eqb (fst e) p)) d.

(** A path as the kernel sees it: what is between the slashes. *)
Definition path := list str.
Definition path_of (s : str) : path := split_char "/" s.
Definition stays (c : str) : bool := str_eqb c [] || str_eqb c (L ".").
Definition climbs (c : str) : bool := str_eqb c (L "..").

(** Where a path leads: to an existing node that is not a link; to a vacant
    place in an existing directory; to nothing (ENOENT); or another error
    (ENOTDIR, ELOOP). *)
Inductive found := At (p : place) | Vacant (p : place) | NoEntry | Fault.

(** Path resolution from the directory [cur], links followed; the kernel gives
    up (ELOOP) after [links] of them, which is 40 on Linux. *)
Fixpoint walk (links : nat) (d : fs) : place -> path -> found :=
  fix go (cur : place) (p : path) : found :=
    match p with
    | [] => At cur
    | c :: rest =>
        match node_at d cur with
        | Some Dir =>
            if stays c then go cur rest
            else if climbs c then go (removelast cur) rest
            else match node_at d (cur ++ [c]) with
                 | None => match rest with [] => Vacant (cur ++ [c]) | _ => NoEntry end
                 | Some (Link t) =>
                     match links with
                     | 0 => Fault
                     | S k => walk k d (match t with "/"%char :: _ => [] | _ => cur end) (path_of t ++ rest)
                     end
                 | Some _ => go (cur ++ [c]) rest
                 end
        | _ => Fault
        end
    end.

(** All paths below are absolute: they are resolved from the root. *)
Definition resolve (links : nat) (d : fs) (p : path) : found := walk links d [] p.
Definition stat (links : nat) (d : fs) (p : path) : option node :=
  match resolve links d p with At q => node_at d q | _ => None end.
(** Path::exists. *)
Definition path_exists (links : nat) (d : fs) (p : path) : bool :=
  match resolve links d p with At _ => true | _ => false end.
(** Path::is_dir. *)
Definition is_dir (links : nat) (d : fs) (p : path) : bool :=
  match stat links d p with Some Dir => true | _ => false end.
(** fs::canonicalize. *)
Definition canonicalize (links : nat) (d : fs) (p : path) : option place :=
  match resolve links d p with At q => Some q | _ => None end.

(** Valid UTF-8; over-long forms and surrogates are not excluded. *)
Fixpoint utf8_go (need : nat) (s : str) : bool :=
  match s with
  | [] => match need with 0 => true | _ => false end
  | c :: s' =>
      match need with
      | S k => is_cont c && utf8_go k s'
      | 0 => if (code c <? 128)%N then utf8_go 0 s'
             else if (code c <? 194)%N then false
             else if (code c <? 224)%N then utf8_go 1 s'
             else if (code c <? 240)%N then utf8_go 2 s'
             else if (code c <? 245)%N then utf8_go 3 s'
             else false
      end
  end.
Definition is_text (s : str) : bool := utf8_go 0 s.

(** fs::read_to_string. *)
Definition read_text (links : nat) (d : fs) (p : path) : option str :=
  match stat links d p with
  | Some (File s) => if is_text s then Some s else None
  | _ => None
  end.
(** fs::write: open with O_CREAT and O_TRUNC; a dangling link is followed. *)
Definition write (links : nat) (d : fs) (p : path) (s : str) : option fs :=
  match resolve links d p with
  | At q => match node_at d q with Some (File _) => Some (set_node d q (File s)) | _ => None end
  | Vacant q => Some (set_node d q (File s))
  | _ => None
  end.
(** The directory and last name of a path, the last name not followed. *)
Definition last_name (p : path) : option str :=
  match rev p with
  | [] => None
  | c :: _ => if stays c || climbs c then None else Some c
  end.
(** fs::remove_file (unlink): a link is removed, not what it leads to. *)
Definition remove_file (links : nat) (d : fs) (p : path) : option fs :=
  match last_name p, resolve links d (removelast p) with
  | Some c, At q =>
      match node_at d q, node_at d (q ++ [c]) with
      | Some Dir, Some (File _) | Some Dir, Some (Link _) => Some (unset_node d (q ++ [c]))
      | _, _ => None
      end
  | _, _ => None
  end.
(** mkdir(2). *)
Inductive made := Made (d : fs) | NoParent | NotMade.
Definition mkdir (links : nat) (d : fs) (p : path) : made :=
  match last_name p with
  | None => NotMade
  | Some c =>
      match resolve links d (removelast p) with
      | At q =>
          match node_at d q, node_at d (q ++ [c]) with
          | Some Dir, None => Made (set_node d (q ++ [c]) Dir)
          | _, _ => NotMade
          end
      | Vacant _ | NoEntry => NoParent
      | Fault => NotMade
      end
  end.

(** Path::parent: the last name is dropped, and with it what only stays. *)
Fixpoint drop_stays (r : path) : path :=
  match r with
  | c :: r' => if stays c then drop_stays r' else r
  | [] => []
  end.
Definition parent (p : path) : option path :=
  match drop_stays (rev p) with
  | [] => None
  | _ :: r => Some (rev (drop_stays r))
  end.
(** DirBuilder::create_dir_all; [n] bounds the depth of its recursion. *)
Fixpoint create_dir_all (n links : nat) (d : fs) (p : path) : fs * bool :=
  match n with
  | 0 => (d, false)
  | S n' =>
      match mkdir links d p with
      | Made d' => (d', true)
      | NotMade => (d, is_dir links d p)
      | NoParent =>
          match parent p with
          | None => (d, false)
          | Some q =>
              match create_dir_all n' links d q with
              | (d1, false) => (d1, false)
              | (d1, true) =>
                  match mkdir links d1 p with
                  | Made d2 => (d2, true)
                  | _ => (d1, is_dir links d1 p)
                  end
              end
          end
      end
  end.

(** fs::read_dir: the names in a directory, in the order of the listing. *)
Definition child_name (q p : place) : option str :=
  match rev p with
  | c :: r => if place_eqb (rev r) q then Some c else None
  | [] => None
  end.
Definition read_dir (links : nat) (d : fs) (p : path) : option (list str) :=
  match resolve links d p with
  | At q =>
      match node_at d q with
      | Some Dir => Some (flat_map (fun e => match child_name q (fst e) with Some c => [c] | None => [] end) d)
      | _ => None
      end
  | _ => None
  end.
