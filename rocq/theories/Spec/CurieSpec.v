(** Specification side of C35-C44 and C75-C76. *)
From Verif Require Import Model.Py Model.Terms.
Open Scope N_scope.

(** the URI schemes of IANA's registry that the library knows: an IRI that starts with one of
    them is not a CURIE *)
Definition registered_schemes : list str := map s2l
  ["aaa"; "aaas"; "acap"; "cap"; "cid"; "crid"; "data"; "dav"; "dict"; "dns"; "fax"; "file"; "ftp";
   "go"; "gopher"; "h323"; "http"; "https"; "icap"; "im"; "imap"; "info"; "ipp"; "iris"; "iris.beep";
   "iris.xpc"; "iris.xpcs"; "iris.lwz"; "ldap"; "mailto"; "mid"; "modem"; "msrp"; "msrps"; "mtqp";
   "mupdate"; "news"; "nfs"; "nntp"; "opaquelocktoken"; "pop"; "pres"; "rtsp"; "service"; "shttp";
   "sip"; "sips"; "snmp"; "soap.beep"; "soap.beeps"; "tag"; "tel"; "telnet"; "tftp"; "thismessage";
   "tip"; "tv"; "urn"; "vemmi"; "xmlrpc.beep"; "xmlrpc.beeps"; "xmpp"; "z39.50r"; "z39.50s"; "afs";
   "dtn"; "iax"; "mailserver"; "pack"; "tn3270"; "prospero"; "snews"; "videotex"; "wais"]%string.

(** [c] splits at its first colon into [p] and [r]; without a colon all of it is [p] *)
Definition splits (c p r : str) : Prop :=
  ~ In 58 p /\ (c = p ++ 58 :: r \/ (c = p /\ r = [])).
Definition bracketed (c inner : str) : Prop := c = 91 :: inner ++ [93].
Definition lookup (m : dict str str) (k v : str) : Prop :=
  exists m1 m2, m = m1 ++ (k, v) :: m2 /\ ~ In k (map fst m1).
Definition unbound (m : dict str str) (k : str) : Prop := ~ In k (map fst m).

(** the meaning of a CURIE body [c] (brackets removed) *)
Inductive body_means (m : dict str str) (c iri : str) : Prop :=
| MeansDefault p ns : splits c p [] -> lookup m [] ns -> iri = ns ++ p -> body_means m c iri
| MeansPrefix p r ns : splits c p r -> (r <> [] \/ unbound m []) -> lookup m p ns -> iri = ns ++ r -> body_means m c iri.
Inductive curie_means (known : list str) (m : dict str str) (c iri : str) : Prop :=
| MeansBracketed inner : bracketed c inner -> body_means m inner iri -> curie_means known m c iri
| MeansAbsolute p r : (forall i, ~ bracketed c i) -> c <> [] -> splits c p r -> In p known -> iri = c -> curie_means known m c iri
| MeansPlain p r : (forall i, ~ bracketed c i) -> c <> [] -> splits c p r -> ~ In p known -> body_means m c iri ->
    curie_means known m c iri.
(** no reading: the prefix is unknown *)
Definition body_unknown (m : dict str str) (c : str) : Prop :=
  exists p r, splits c p r /\ (r <> [] \/ unbound m []) /\ unbound m p.

Definition prefix_of (ns uri : str) : Prop := exists r, uri = ns ++ r.
Definition occurs_in (ns s : str) : Prop := exists a b, s = a ++ ns ++ b.

(** language tags: the primary subtag and the rest *)
Definition tag_split (l p r : str) : Prop :=
  ~ In 45 p /\ (l = p ++ 45 :: r \/ (l = p /\ r = [])).

(** value of a decimal text *)
Definition digit_value (c : char) : option N := if (48 <=? c) && (c <=? 57) then Some (c - 48) else None.
Fixpoint dec_nat (acc : N) (s : str) : option N :=
  match s with
  | [] => Some acc
  | c :: r => match digit_value c with Some d => dec_nat (10 * acc + d) r | None => None end
  end.
Definition dec_value (s : str) : option Z :=
  match s with
  | c :: r => if c =? 45 then match r with [] => None | _ => option_map (fun n => (- Z.of_N n)%Z) (dec_nat 0 r) end
              else option_map Z.of_N (dec_nat 0 s)
  | [] => None
  end.

(** the pair that to_curie uses: longest namespace, first inserted among equals *)
Definition chosen (m : dict str str) (uri p ns : str) : Prop :=
  exists m1 m2, m = m1 ++ (p, ns) :: m2 /\ prefix_of ns uri /\
    (forall p' ns', In (p', ns') m1 -> prefix_of ns' uri -> (length ns' < length ns)%nat) /\
    (forall p' ns', In (p', ns') m2 -> prefix_of ns' uri -> (length ns' <= length ns)%nat).

(** merging two maps, as a function of the key *)
Definition merged (override : bool) (a b : option str) : option str :=
  match override, a, b with
  | true, _, Some v => Some v
  | true, x, None => x
  | false, Some v, _ => Some v
  | false, None, x => x
  end.
(** canonical decimal text: no sign but [-], no leading zero, no negative zero *)
Definition canonical_int (s : str) : Prop :=
  s = [48] \/ exists sign d r, s = sign ++ d :: r /\ (sign = [] \/ sign = [45]) /\ 49 <= d <= 57 /\ Forall (fun c => 48 <= c <= 57) r.

(** the namespaces of W3C, written out *)
Definition w3_rdf : str := s2l "http://www.w3.org/1999/02/22-rdf-syntax-ns#".
Definition w3_rdfs : str := s2l "http://www.w3.org/2000/01/rdf-schema#".
Definition w3_xsd : str := s2l "http://www.w3.org/2001/XMLSchema#".
