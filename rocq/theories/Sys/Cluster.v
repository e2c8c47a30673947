(** Clusters and their hosts (marcel/object/cluster.py:21-123), and the commands by which remote and sudo reach them (op/remote.py:172-181,
    plat.py:23-43, op/sudo.py:96). *)
From Verif.Sys Require Export Scp.
Local Open Scope char_scope.
Local Open Scope list_scope.

(** What can be given for host and hosts: the values of Python that the code tells apart *)
Inductive given := GNone | GStr (s : text) | GInt (n : nat) | GSeq (l : list given) | GOther.

(** A Host object: cluster.py:23-28. [host_] is the attribute _host, [port_] _port, [addr_] _addr, [name_] _name. *)
Record hostobj := mkhostobj { host_ : given; addr_ : option text; name_ : option text; port_ : option given }.
Definition new_host (g : given) : hostobj := mkhostobj g None None None.

(** Host.ensure_initialized, cluster.py:59-79.  [resolve] is ip_address and gethostbyname: the address of a name, or of the address
    itself, and whether the name is an address.  None: the exception. *)
Definition split_port (h : hostobj) : hostobj :=
  match host_ h with GSeq [a; p] => mkhostobj a (addr_ h) (name_ h) (Some p) | _ => h end.
Definition ensure_initialized (resolve : text -> option text) (h : hostobj) : option hostobj :=
  match addr_ h with
  | Some _ => Some h
  | None =>
      let h := split_port h in
      match host_ h with
      | GStr s => match resolve s with Some a => Some (mkhostobj (host_ h) (Some a) (Some s) (port_ h)) | None => None end
      | _ => None
      end
  end.

(** Equality of values of Python *)
Fixpoint same (a b : given) : bool :=
  match a, b with
  | GNone, GNone => true
  | GStr s, GStr t => if list_eq_dec ascii_dec s t then true else false
  | GInt m, GInt n => Nat.eqb m n
  | GSeq l, GSeq k => (fix go (l k : list given) := match l, k with [], [] => true | a :: l, b :: k => same a b && go l k | _, _ => false end) l k
  | GOther, GOther => true
  | _, _ => false
  end.
(** Host.__eq__, cluster.py:37-38 *)
Definition host_eq (h k : hostobj) : bool := same (host_ h) (host_ k).

(** Cluster.__init__, cluster.py:98-118 *)
Inductive made := Made (hosts : list hostobj) | Rejected | Crashed.
Definition make_cluster (host hosts identity : given) : made :=
  let is_none g := match g with GNone => true | _ => false end in
  if Bool.eqb (is_none host) (is_none hosts) then Rejected
  else
    let host_ok :=
      match host with
      | GSeq [] => Crashed                               (* host[0]: IndexError *)
      | GSeq (GStr _ :: []) => Crashed                   (* host[1]: IndexError *)
      | GSeq (GStr _ :: _ :: _) => Made []               (* type(host[1] is int) is the type bool, which is true *)
      | GSeq (_ :: _) => Rejected
      | _ => Made []
      end in
    match host_ok with
    | Made _ =>
        match host, hosts with
        | GNone, GSeq l => if is_none identity then Rejected else Made (map new_host l)
        | GNone, _ => Rejected
        | _, _ => if is_none identity then Rejected else Made [new_host host]
        end
    | r => r
    end.

(** remote.py:172-181 *)
Inductive platform := Linux | MacOS.
(** plat.py:23-24, 42-43: the platform is that of the machine marcel runs on *)
Definition farcel_invocation (p : platform) : text :=
  match p with Linux => txt "farcel.py" | MacOS => squote :: txt "zsh -l -c farcel.py" ++ [squote] end.
Definition ssh_command (p : platform) (h : Scp.host) : text :=
  join_blank
    ([txt "ssh"]
     ++ match identity h with [] => [] | i => [txt "-i"; i] end
     ++ match port h with Some n => [txt "-p"; str_of_nat n] | None => [] end
     ++ [user h ++ "@" :: addr h; farcel_invocation p]).

(** sudo.py:96 *)
Definition sudo_command (flags : list text) : text := join_blank (txt "sudo" :: flags ++ [txt "farcel.py"]).
