(** Vocabulary for clients that come with a packet which is neither a startup packet of protocol version 3.0 nor an SSLRequest. *)
From Verif Require Export SpecWire SpecProtocol SpecSession.

(** [pk] is a complete packet without type byte (as a client sends them at the start), with the number [v] in front
    of whatever else it carries: the protocol version, or the code of a special request. *)
Definition packet_code (v : Z) (pk : bytes) : Prop := exists code more, int32_repr v code /\ startup_packet (code ++ more) pk.
(** the requests there are besides (PostgreSQL's documentation, "Message Formats") *)
Definition ssl_request_code : Z := 80877103.
Definition gssenc_request_code : Z := 80877104.
Definition cancel_request_code : Z := 80877102.
(** The client began with any number of SSLRequests, and went on with a packet of number [v]. *)
Definition client_began (h : list event) (requests : nat) (v : Z) : Prop :=
  exists ss pk more, length ss = requests /\ Forall (startup_wire ssl_request_code []) ss /\ packet_code v pk /\ arrived Client h = concat ss ++ pk ++ more.
(** Nothing of the connection went beyond the negotiation: no configuration was asked for, nothing was dialled, no database
    connected, nothing sent to one; the client received nothing but at most [n] refusals of SSL. *)
Definition got_nowhere (h : list event) (n : nat) : Prop :=
  configs h = [] /\ dials h = [] /\ connected h = false /\ sent DB h = [] /\ exists k, (k <= n)%nat /\ sent Client h = repeat "N"%byte k.
