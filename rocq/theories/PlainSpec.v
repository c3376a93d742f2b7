(** The specification of the plain key-value API: a finite map from keys to values. *)
From Verif Require Import Base Hashing Fs Shard Router Store Kv Api Hist.

Notation umap := (gmap bytes bytes).

(** The documented limits: a key of at most 16128 bytes, a value of at most 65280 (constants of
    src/lib.rs), and an entry (key, one byte of namespace, value) no larger than a shard. *)
Definition rejected (cfg : config) (k v : bytes) : option err :=
  if MAX_KEY_SIZE <? len k then Some (EKeyTooLong (len k)) else
  if MAX_VALUE_SIZE <? len v then Some (EValueTooLong (len v)) else
  if c_max_shard cfg <? len k + 1 + len v then Some (ECannotFit (len k + 1 + len v) (c_max_shard cfg))
  else None.

Definition expected_ok (ex : option bytes) (cur : bytes) : bool :=
  match ex with None => true | Some e => bool_decide (e = cur) end.

(** What each operation does to the map [m] and what it returns. *)
Definition spec_op (cfg : config) (m : umap) (o : op) : umap * res out :=
  match o with
  | OGet k => (m, Ok (RGet (m !! k)))
  | OContains k => (m, Ok (RContains (match m !! k with Some _ => true | None => false end)))
  | ORemove k => (delete k m, Ok (RRemove (m !! k)))
  | OSet k v =>
    match rejected cfg k v with
    | Some e => (m, Err e)
    | None => (<[k := v]> m, Ok (RSet (match m !! k with Some old => PrevValue old | None => CreatedNew end)))
    end
  | OReplace k v ex =>
    match rejected cfg k v with
    | Some e => (m, Err e)
    | None =>
      match m !! k with
      | None => (m, Ok (RReplace RDoesNotExist))
      | Some cur => if expected_ok ex cur then (<[k := v]> m, Ok (RReplace (RPrevValue cur)))
                    else (m, Ok (RReplace (RWrongValue cur)))
      end
    end
  | OGetOrCreate k v =>
    match rejected cfg k v with
    | Some e => (m, Err e)
    | None =>
      match m !! k with
      | None => (<[k := v]> m, Ok (RGetOrCreate (GCreated v)))
      | Some cur => (m, Ok (RGetOrCreate (GExisting cur)))
      end
    end
  end.

(** What each event of a history does to the map of plain keys: only plain calls and clear
    change it; a crash during a plain call leaves the map before or after the call. *)
Definition plain_step (cfg : config) (m : umap) (e : event) (cfg' : config) (m' : umap) : Prop :=
  match e with
  | ECall (CPlain o) r =>
    m' = fst (spec_op cfg m o) /\
    r = match snd (spec_op cfg m o) with Ok x => Ok (YOut x) | Err e => Err e end
  | ECrash (ACall (CPlain o)) => m' = m \/ m' = fst (spec_op cfg m o)
  | EClear => m' = ∅
  | ECall _ _ | EMaint _ | EReopen | ECrash _ => m' = m
  end.
