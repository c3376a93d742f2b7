(** Iterators over the store beside the machine of threads (Conc.v): [CandyStoreIterator::next],
    store.rs:154-199, one step per [read_at] (shard.rs:759-769).

    An iterator holds the node's read lock while it is inside a shard (router.rs:280-295), so the
    shard is not split meanwhile, and the row's lock in read mode during one [read_at]; compactions
    go on between two reads.
    Simplifications: taking the row's lock, reading the slot and unlocking are one step (nobody
    else changes the row meanwhile); an iterator is used by one thread at a time ([next] takes
    [&mut self]). *)
From Verif Require Import Base Hashing Fs Shard Router Store Kv Limits Api Conc.

Inductive walker :=
| WOut (it : iter_state)                 (* between calls of [next()] *)
| WNext (it : iter_state)                (* inside [next()], holding no lock *)
| WIn (it : iter_state) (s e : N).       (* inside the closure of [shared_op] on the shard [s, e) *)
Definition w_it (T : walker) : iter_state := match T with WOut it | WNext it | WIn it _ _ => it end.

Record wstate := W { w_c : cstate; w_its : list walker }.
Inductive wchoice := WThr (h : choice) | WCall (i : nat) | WRun (i : nat).
(** [WYield i raw x]: [next()] of the iterator number [i], made by [iter_raw()] if [raw] and by
    [iter()] otherwise, returns [x]. *)
Inductive wevent := WE (e : cevent) | WNew (i : nat) | WYield (i : nat) (raw : bool) (x : res (option kv)).

(** store.rs:162-169 *)
Definition advance (it : iter_state) : iter_state :=
  if (ROW_WIDTH <=? S (it_col it))%nat then Iter (it_sel it) (S (it_row it)) 0 (it_raw it)
  else Iter (it_sel it) (it_row it) (S (it_col it)) (it_raw it).

(** The step [h] of the threads splits a node whose read lock an iterator holds. *)
Definition kept (b : wstate) (h : choice) : bool :=
  match h with
  | ChRun a =>
    match c_ths (w_c b) !! a with
    | Some (TSplit _ _ s e) => existsb (fun T => match T with WIn _ s' e' => (s =? s') && (e =? e') | _ => false end) (w_its b)
    | _ => false
    end
  | _ => false
  end.

(** One step of the iterator number [i] in the state [T]: its new state and what it returns. *)
Definition walk_step (cfg : config) (c : cstate) (T : walker) : option (walker * option (res (option kv))) :=
  match T with
  | WOut _ => None
  | WNext it =>
    (* store.rs:158-159, 198 *)
    if it_sel it <? END_OF_SHARDS then
      let sh := route (c_root c) (it_sel it) in
      Some (WIn it (sh_start sh) (sh_end sh), None)
    else Some (WOut it, Some (Ok None))
  | WIn it s e =>
    if (it_row it <? NUM_ROWS)%nat then
      if row_free cfg (c_ths c) (s, it_row it, false) then
        (* store.rs:160-179, 190-193 *)
        let it' := advance it in
        match shard_read_at (c_fs c) (route (c_root c) s) (it_row it) (it_col it) with
        | Err er => Some (WOut it', Some (Err er))
        | Ok None => Some (WIn it' s e, None)
        | Ok (Some x) =>
          match iter_pick (it_raw it) x with
          | Some y => Some (WOut (Iter s (it_row it') (it_col it') (it_raw it)), Some (Ok (Some y)))
          | None => Some (WIn it' s e, None)
          end
        end
      else None
    else Some (WNext (Iter e 0 0 (it_raw it)), None)       (* store.rs:182-184, 188-189 *)
  end.

Definition wstep (cfg : config) (b : wstate) (ch : wchoice) : option (wstate * option wevent) :=
  match ch with
  | WThr h =>
    if kept b h then None
    else match cstep cfg (w_c b) h with
         | Some (c', e) => Some (W c' (w_its b), WE <$> e)
         | None => None
         end
  | WCall i =>
    match w_its b !! i with
    | Some (WOut it) => Some (W (w_c b) (<[i := WNext it]> (w_its b)), Some (WNew i))
    | _ => None
    end
  | WRun i =>
    match w_its b !! i with
    | Some T =>
      match walk_step cfg (w_c b) T with
      | Some (T', x) => Some (W (w_c b) (<[i := T']> (w_its b)), WYield i (it_raw (w_it T)) <$> x)
      | None => None
      end
    | None => None
    end
  end.

(** [wrun cfg G b chs es b']: the schedule [chs] takes [b] to [b'] with the events [es]; [G] holds
    of the states before and after every step. *)
Inductive wrun (cfg : config) (G : wstate -> wstate -> Prop) : wstate -> list wchoice -> list wevent -> wstate -> Prop :=
| wrun_nil b : wrun cfg G b [] [] b
| wrun_step b ch b1 e chs es b' :
    wstep cfg b ch = Some (b1, e) -> G b b1 -> wrun cfg G b1 chs es b' ->
    wrun cfg G b (ch :: chs) (option_list e ++ es) b'.

(** Iterators at the start: new ones, or made from cookies of positions inside the rows. *)
Definition starts (its : list walker) : Prop :=
  forall i T, its !! i = Some T -> exists it, T = WOut it /\ (it_col it < ROW_WIDTH)%nat.
Definition calm_step (b b' : wstate) : Prop := calm (w_c b).
