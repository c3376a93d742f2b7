(** Specification of concurrent calls.

    [astep]: threads run their calls as programs over raw operations, each raw operation acting
    atomically on one map.  [lrun]: the textbook form of linearizability for the plain API: between its call
    and its return each operation takes effect at one moment, on one map. *)
From Verif Require Import Base Hashing Fs Shard Router Store Kv Limits Api Spec Hist PlainSpec Conc.

(** What [get_by_hash] may return (hash collisions may add entries of other keys). *)
Definition byhash_spec (cfg : config) (m : kvmap) (ph : phash) (l : list kv) : Prop :=
  NoDup (map fst l) /\
  (forall k v, (k, v) ∈ l -> m !! k = Some v /\ ph_row (hashk cfg k) = ph_row ph /\ ph_sig (hashk cfg k) = ph_sig ph) /\
  (forall k v, m !! k = Some v -> hashk cfg k = ph -> (k, v) ∈ l).

(** One raw operation, atomically, of thread [a] with program [p]: the map, the keyed locks and
    the rest of the program after it. *)
Definition kop_step (cfg : config) (a : nat) (m : kvmap) (lk : gmap N nat) (p : kprog reply)
    (m' : kvmap) (lk' : gmap N nat) (p' : kprog reply) : Prop :=
  match p with
  | KRet _ | KFail _ => False
  | KVis o k =>
    match o in kop X return (X -> kprog reply) -> Prop with
    | KGet key => fun k => m' = m /\ lk' = lk /\ p' = k (m !! key)
    | KIns key v mode => fun k =>
      lk' = lk /\
      match ins_err cfg key v with
      | Some e => m' = m /\ p' = KFail e
      | None => m' = fst (spec_ins m key v mode) /\ p' = k (snd (spec_ins m key v mode))
      end
    | KRem key => fun k => m' = delete key m /\ lk' = lk /\ p' = k (m !! key)
    | KByHash ph => fun k =>
      m' = m /\ lk' = lk /\
      if ph_sig ph =? INVALID_SIG then p' = KFail EPanic
      else exists l, byhash_spec cfg m ph l /\ p' = k l
    | KLock i => fun k => m' = m /\ lk !! i = None /\ lk' = <[i := a]> lk /\ p' = k tt
    | KUnlock i => fun k => m' = m /\ lk' = delete i lk /\ p' = k tt
    end k
  end.

(** The map, the calls in progress, the keyed locks. *)
Record astate := AS { a_map : kvmap; a_ths : gmap nat (kprog reply); a_lk : gmap N nat }.

Inductive astep (cfg : config) : astate -> option cevent -> astate -> Prop :=
| as_call m P lk a c :
    P !! a = None -> astep cfg (AS m P lk) (Some (EvCall a c)) (AS m (<[a := call_prog cfg c]> P) lk)
| as_op m P lk a p m' lk' p' :
    P !! a = Some p -> kop_step cfg a m lk p m' lk' p' ->
    astep cfg (AS m P lk) None (AS m' (<[a := p']> P) lk')
| as_ret m P lk a y :
    P !! a = Some (KRet y) -> astep cfg (AS m P lk) (Some (EvRet a (Ok y))) (AS m (delete a P) lk)
| as_fail m P lk a e :
    P !! a = Some (KFail e) ->
    astep cfg (AS m P lk) (Some (EvRet a (Err e))) (AS m (delete a P) (unlock_all lk a)).

Inductive arun (cfg : config) : astate -> list cevent -> astate -> Prop :=
| arun_nil s : arun cfg s [] s
| arun_step s e s1 es s' : astep cfg s e s1 -> arun cfg s1 es s' -> arun cfg s (option_list e ++ es) s'.

(** ** Linearizability *)
(** A call in progress: not yet taken effect, or taken effect with this result. *)
Inductive phase := PCalled (c : call) | PDone (r : res reply).

(** [lrun spec m P es m' P']: starting with the abstract state [m] and the calls [P] in progress,
    the calls and returns [es] are possible if every call takes effect at one moment between its
    call and its return, and then changes the state and has the result that [spec] allows:
    [spec m c r m'] for the call [c] on the state [m] with the result [r] and the new state [m']. *)
Inductive lrun {S : Type} (spec : S -> call -> res reply -> S -> Prop)
  : S -> gmap nat phase -> list cevent -> S -> gmap nat phase -> Prop :=
| lr_nil m P : lrun spec m P [] m P
| lr_call m P a c es m' P' :
    P !! a = None -> lrun spec m (<[a := PCalled c]> P) es m' P' ->
    lrun spec m P (EvCall a c :: es) m' P'
| lr_effect m P a c r m1 es m' P' :
    P !! a = Some (PCalled c) -> spec m c r m1 -> lrun spec m1 (<[a := PDone r]> P) es m' P' ->
    lrun spec m P es m' P'
| lr_ret m P a r es m' P' :
    P !! a = Some (PDone r) -> lrun spec m (delete a P) es m' P' ->
    lrun spec m P (EvRet a r :: es) m' P'.

(** The specification of the plain calls (PlainSpec.v), as for a call in a sequential history. *)
Definition plain_call (cfg : config) (m : umap) (c : call) (r : res reply) (m' : umap) : Prop :=
  plain_step cfg m (ECall c r) cfg m'.

(** The calls that have returned, with their results, and those that have not, in a sequence of
    calls and returns that starts with the calls [Q] in progress. *)
Fixpoint returned (Q : gmap nat call) (es : list cevent) : list (call * res reply) :=
  match es with
  | [] => []
  | EvCall a c :: es => returned (<[a := c]> Q) es
  | EvRet a r :: es =>
    match Q !! a with Some c => (c, r) :: returned (delete a Q) es | None => returned (delete a Q) es end
  end.
Fixpoint pending (Q : gmap nat call) (es : list cevent) : gmap nat call :=
  match es with
  | [] => Q
  | EvCall a c :: es => pending (<[a := c]> Q) es
  | EvRet a r :: es => pending (delete a Q) es
  end.
