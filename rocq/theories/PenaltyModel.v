(** Model of penalties: the score of a connection, and the addresses that are banned.

    Source: /repo/src/main.cpp:479-497 (Misbehaving), /repo/src/p2p/sendmessage.hpp:28-32, 134-146
    (SendMessages: what it does about penalties), /repo/src/p2p/node.cpp:31-48 (InitializeNode,
    FinalizeNode), 180-207 (IsBanned, Ban), /repo/src/p2p/node.h:88-112 (CNodeState),
    /repo/src/net.cpp:644-658 (accepting connections), 1116-1141 (OpenNetworkConnection).

    Simplifications: an address is a number; connections that are refused for reasons other than a ban
    are left out of histories; so are calls of SendMessages that do not get the lock, which do nothing
    about penalties. What a peer is blamed for, and when a connection ends, is anything. A signed sum
    that overflows is undefined, written [None]. *)
From Coq Require Import List Bool NArith ZArith.
Import ListNotations.
Open Scope Z_scope.

(** What is known about a connection, node.h:88-112, with [nVersion != 0] and [fDisconnect]. *)
Record peer := { p_addr : N; p_greeted : bool; p_score : Z; p_ban : bool; p_leaving : bool }.
(** [mapNodeState] and [setBanned], the number of the next connection and the time. *)
Record node := { n_now : Z; n_next : N; n_peers : list (N * peer); n_banned : list (N * Z) }.
(** A node that starts at some time. *)
Definition fresh (now : Z) : node := {| n_now := now; n_next := 0; n_peers := []; n_banned := [] |}.

(** How a connection is made: the other side connects (net.cpp:625-658), this node connects to an address
    or to a name (net.cpp:1116-1141, [strDest]). *)
Inductive way := Calls | Dials | DialsName.
(** What can happen. *)
Inductive event :=
| Joins (w : way) (a : N)
| Greets (id : N)
| Errs (id : N) (howmuch : Z)
| Serves (id : N)
| Leaves (id : N)
| Clock (now : Z).

(** Lookup in a map. *)
Fixpoint look {A} (l : list (N * A)) (k : N) : option A :=
  match l with [] => None | (k', x) :: l' => if N.eqb k k' then Some x else look l' k end.
(** Changing an entry of a map. *)
Fixpoint change {A} (l : list (N * A)) (k : N) (f : A -> A) : list (N * A) :=
  match l with [] => [] | (k', x) :: l' => if N.eqb k k' then (k', f x) :: l' else (k', x) :: change l' k f end.

(** [IsBanned], node.cpp:185-197. *)
Definition is_banned (s : node) (a : N) : bool :=
  match look (n_banned s) a with Some t => n_now s <? t | None => false end.
(** [Ban], node.cpp:199-207; an address without an entry gets 0 first. *)
Definition ban (bantime : Z) (s : node) (a : N) : list (N * Z) :=
  let t := n_now s + bantime in
  let old := match look (n_banned s) a with Some t' => t' | None => 0 end in
  (a, if old <? t then t else old) :: n_banned s.
(** A new connection: [CNode], [InitializeNode], node.cpp:31-35. *)
Definition join (s : node) (a : N) : node :=
  {| n_now := n_now s; n_next := N.succ (n_next s);
     n_peers := (n_next s, {| p_addr := a; p_greeted := false; p_score := 0; p_ban := false; p_leaving := false |})
                :: n_peers s;
     n_banned := n_banned s |}.
(** Other connections than before. *)
Definition with_peers (s : node) (l : list (N * peer)) : node :=
  {| n_now := n_now s; n_next := n_next s; n_peers := l; n_banned := n_banned s |}.
(** The range of [int32_t]. *)
Definition int32 (z : Z) : bool := (-2147483648 <=? z) && (z <=? 2147483647).

Section Step.
(** -banscore and -bantime, and [CNetAddr::IsLocal]. *)
Variables (threshold bantime : Z) (local : N -> bool).

(** [Misbehaving], main.cpp:479-497. *)
Definition misbehaving (s : node) (id : N) (howmuch : Z) : option node :=
  if howmuch =? 0 then Some s
  else match look (n_peers s) id with
  | None => Some s
  | Some p =>
    let score := p_score p + howmuch in
    if int32 score then
      Some (with_peers s (change (n_peers s) id (fun p =>
        {| p_addr := p_addr p; p_greeted := p_greeted p; p_score := score;
           p_ban := if threshold <=? score then true else p_ban p; p_leaving := p_leaving p |})))
    else None
  end.

(** [SendMessages]: before the version nothing, sendmessage.hpp:30-32; the ban, sendmessage.hpp:134-146. *)
Definition serve (s : node) (id : N) : node :=
  match look (n_peers s) id with
  | None => s
  | Some p =>
    if negb (p_greeted p) then s
    else if p_ban p then
      let quit := negb (local (p_addr p)) in
      {| n_now := n_now s; n_next := n_next s;
         n_peers := change (n_peers s) id (fun p =>
           {| p_addr := p_addr p; p_greeted := p_greeted p; p_score := p_score p; p_ban := false;
              p_leaving := quit || p_leaving p |});
         n_banned := if quit then ban bantime s (p_addr p) else n_banned s |}
    else s
  end.

(** One event. *)
Definition step (s : node) (e : event) : option node :=
  match e with
  | Joins DialsName a => Some (join s a)
  | Joins _ a => Some (if is_banned s a then s else join s a)
  | Greets id =>
    Some (with_peers s (change (n_peers s) id (fun p =>
      {| p_addr := p_addr p; p_greeted := true; p_score := p_score p; p_ban := p_ban p;
         p_leaving := p_leaving p |})))
  | Errs id howmuch => misbehaving s id howmuch
  | Serves id => Some (serve s id)
  | Leaves id => Some (with_peers s (filter (fun x => negb (N.eqb id (fst x))) (n_peers s)))
  | Clock t => Some {| n_now := t; n_next := n_next s; n_peers := n_peers s; n_banned := n_banned s |}
  end.

(** A history. *)
Fixpoint run (s : node) (l : list event) : option node :=
  match l with [] => Some s | e :: l' => match step s e with Some s' => run s' l' | None => None end end.
End Step.
