(** Programs that recover from the panics of rule changes.

    A matcher with three or more alternatives at one point is accepted, and every
    rule change it hears of panics (C09).  [ModelM] ends there.  Here the panic is
    a result: the call returns the state in which it leaves the model, and the
    program goes on (recover).  The outer [Panic] is left for panics inside a
    role manager (role_manager.go with a user's matching function), whose state
    afterwards is the subject of [RecoverM].

    Simplification: what a panic in a listener leaves behind in the emitter
    (locks of the event library) is not modelled. *)
From Verif Require Import GoBase DefsM PolicyM MatcherDefM MatcherM RbacM DomainM ModelM.

(** matcher.go:122-142 [addRuleHelper]: the node is updated in place, so what was
    done before the panic stays; the boolean tells whether the call returns. *)
Fixpoint w_add (d : argdef) (r : rule) (s : stage) (n : node) : node * bool :=
  match s with
  | Stage _ cs =>
      (fix go (cs : list stage) (i : nat) (n : node) : node * bool :=
         match cs with
         | [] => (n, true)
         | c :: cs' =>
             match child n i with
             | Panic => (n, false)
             | Val m =>
                 let key := stage_key d c r in
                 if IsLeafNode c then go cs' (S i) (set_child n i (mput key (NewMatcherNode r) m))
                 else let '(n', ok) := w_add d r c (GetOrCreate m key r) in
                      let n := set_child n i (mput key n' m) in
                      if ok : bool then go cs' (S i) n else (n, false)
             end
         end) cs 0 n
  end.

(** matcher.go:148-168 [removeRuleHelper]. *)
Fixpoint w_rem (d : argdef) (r : rule) (s : stage) (n : node) : node * bool :=
  match s with
  | Stage _ cs =>
      (fix go (cs : list stage) (i : nat) (n : node) : node * bool :=
         match cs with
         | [] => (n, true)
         | c :: cs' =>
             match child n i with
             | Panic => (n, false)
             | Val m =>
                 let key := stage_key d c r in
                 if IsLeafNode c then go cs' (S i) (set_child n i (mdel key m))
                 else match mget key m with
                      | None => go cs' (S i) n
                      | Some n1 =>
                          let '(n', ok) := w_rem d r c n1 in
                          let n := set_child n i (mput key n' m) in
                          if ok : bool then go cs' (S i) n else (n, false)
                      end
             end
         end) cs 0 n
  end.

(** matcher.go:97-109: the listeners of a matcher. *)
Definition w_event (m : matcher) (e : event) : matcher * bool :=
  match e with
  | EvtAdded r => let '(n, ok) := w_add (m_def m) r (m_tree m) (m_root m) in (mkMatcher (m_def m) (m_tree m) n, ok)
  | EvtRemoved r => let '(n, ok) := w_rem (m_def m) r (m_tree m) (m_root m) in (mkMatcher (m_def m) (m_tree m) n, ok)
  | EvtCleared => (mkMatcher (m_def m) (m_tree m) empty_root, true)
  end.

(** The listeners are called in turn; a panic ends the delivery. *)
Fixpoint w_notify (ms : list matcher) (ids : list nat) (e : event) : list matcher * bool :=
  match ids with
  | [] => (ms, true)
  | i :: rest =>
      match nth_error ms i with
      | None => (ms, false)                 (* unreachable: ids are positions *)
      | Some x => match w_event x e with
                  | (x, true) => w_notify (set_nth ms i x) rest e
                  | (x, false) => (set_nth ms i x, false)
                  end
      end
  end.
Fixpoint w_notify_all (ms : list matcher) (ids : list nat) (es : list event) : list matcher * bool :=
  match es with
  | [] => (ms, true)
  | e :: es' => match w_notify ms ids e with
                | (ms, true) => w_notify_all ms ids es'
                | (ms, false) => (ms, false)
                end
  end.

(** policy.go:38-75, role_policy.go:18-49: the rules are changed before the event
    is emitted.  A grouping rule of fewer than two names panics before anything
    is done ([rule[0]], [rule[1]] at role_policy.go:19,28). *)
Definition w_act (o : orders) (m : model) (i : nat) (a : pop) : outcome (model * option bool) :=
  match nth_error (md_objs m) i with
  | None => Panic                           (* unreachable *)
  | Some ob =>
      match o_body ob with
      | OPolicy p =>
          let '(p', b, es) := pstep p a in
          let '(ms, ok) := w_notify_all (md_mats m) (o_listeners ob) es in
          Val (set_mats (set_objs m (set_nth (md_objs m) i (mkObj (OPolicy p') (o_listeners ob)))) ms, if ok : bool then Some b else None)
      | ORole rm =>
          match nth_error (md_rms m) rm with
          | None => Panic                   (* unreachable *)
          | Some x =>
              match a with
              | PAdd [] | PAdd [_] | PRemove [] | PRemove [_] => Val (m, None)
              | _ =>
                  let! (x', b, es) := act_role (o_names o) x a in
                  let '(ms, ok) := w_notify_all (md_mats m) (o_listeners ob) es in
                  Val (set_mats (set_rms m (set_nth (md_rms m) rm x')) ms, if ok : bool then Some b else None)
              end
          end
      end
  end.

(** model.go:248-314 [AddRule], [RemoveRule] ([mk], [ev]): [rule[0]] and [key[0]]
    panic before anything is done; the event of the model is emitted only when
    the policy's call returned. *)
Definition w_rule (o : orders) (m : model) (mk : rule -> pop) (ev : rule -> mevent) (rl : rule) : outcome (model * option mresult) :=
  match rl with
  | [] => Val (m, None)
  | key :: r =>
      match first_byte key with
      | None => Val (m, None)
      | Some c =>
          let change where_ notFound :=
            match mget key where_ with
            | None => Val (m, Some (mkRes false (Some notFound) []))
            | Some i => let! (m, b) := w_act o m i (mk r) in
                        Val (m, option_map (fun b : bool => mkRes b None (if b then [ev rl] else [])) b)
            end in
          if Ascii.eqb c "p" then change (md_pMap m) ErrPolicyNotFound
          else if Ascii.eqb c "g" then change (md_rpMap m) ErrRMNotFound
          else Val (m, Some (mkRes false (Some ErrPolicyNotFound) []))
      end
  end.

(** model.go:421-427 [ClearPolicy]. *)
Definition w_clear (o : orders) (m : model) (key : string) : outcome (model * option mresult) :=
  match GetPolicy m key with
  | None => Val (m, Some (mkRes true (Some ErrPolicyNotFound) []))
  | Some i => let! (m, b) := w_act o m i PClear in Val (m, option_map (fun _ => mkRes true None []) b)
  end.

(** model.go:220-246 [BuildMatcherFromDef]: NewMatcher files the rules before it
    registers its listeners (matcher.go:92-109), so when it panics the model is
    what it was; so it is when [pKey[0]] panics. *)
Definition w_build_def (E : env) (o : orders) (m : model) (expr : string) : model * option (nat + goerr) :=
  match BuildMatcherFromDef E o m expr with
  | Val (m, r) => (m, Some r)
  | Panic => (m, None)
  end.
(** model.go:205-218 [BuildMatcher]. *)
Definition w_build_key (E : env) (o : orders) (m : model) (key : string) : model * option (option goerr) :=
  match mget key (md_m m) with
  | None => (m, Some (Some ErrMatcherNotFound))
  | Some expr =>
      match w_build_def E o m expr with
      | (m, None) => (m, None)
      | (m, Some (inr e)) => (m, Some (Some e))
      | (m, Some (inl j)) => (set_mMap m (mput key j (md_mMap m)), Some None)
      end
  end.
(** model.go:196-203 [BuildMatchers]: the matchers built before the panic stay. *)
Fixpoint w_build_loop (E : env) (o : orders) (m : model) (keys : list string) : model * option (option goerr) :=
  match keys with
  | [] => (m, Some None)
  | key :: rest =>
      match w_build_key E o m key with
      | (m, Some None) => w_build_loop E o m rest
      | r => r
      end
  end.

(** One call; [None] when it panics and the program recovers.  SetDef panics on
    an empty key before anything is done ([key[0]], model.go:171). *)
Definition w_step (E : env) (o : orders) (m : model) (c : mcall) : outcome (model * option mresult) :=
  match c with
  | CSetDef s k v => Val (match SetDef m s k v with
                          | Val (m, e) => (m, Some (mkRes true e []))
                          | Panic => (m, None)
                          end)
  | CAdd r => w_rule o m PAdd MAdded r
  | CRemove r => w_rule o m PRemove MRemoved r
  | CClear k => w_clear o m k
  | CBuild => let (m, r) := w_build_loop E o m (o_names o (mkeys (md_m m))) in
              Val (m, option_map (fun e => mkRes true e []) r)
  | CBuildKey k => let (m, r) := w_build_key E o m k in Val (m, option_map (fun e => mkRes true e []) r)
  | CAdhoc expr => let (m, r) := w_build_def E o m expr in
                   Val (m, option_map (fun r => mkRes true (match r with inr e => Some e | inl _ => None end) []) r)
  | CRemoveDef _ _ | CSetRM _ _ | CSetFn _ _ | CRemFn _ =>
      let! (m, x) := mstep E o m c in Val (m, Some x)
  end.

Fixpoint w_exec (E : env) (m : model) (h : list (orders * mcall)) : outcome (model * list (option mresult)) :=
  match h with
  | [] => Val (m, [])
  | (o, c) :: h' =>
      let! (m, r) := w_step E o m c in
      let! (m, rs) := w_exec E m h' in
      Val (m, r :: rs)
  end.
