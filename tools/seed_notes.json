{
 "m03": {
  "claims": [
   "C10"
  ],
  "note": "first guess also listed C46; the edited encoder still terminates within 10 bytes, so only C10 is false, and C10 fails"
 },
 "m06": {
  "claims": [
   "C01"
  ],
  "note": "first guess also listed C23; typed reads do not go through this table, so C23 stays true"
 },
 "s01": {
  "claims": [],
  "caught": true,
  "note": "equivalent in storage terms: the destructor of Data releases nothing the pool would not drop; no claim becomes false"
 },
 "s04": {
  "tightened": [
   "C33_frugal_partial",
   "C33_every_long_payload_leaks_refuted"
  ],
  "note": "survived at first: the theorems of C33 used the model's own boundary; restated against an independent payload-length specification, after which the edit is rejected"
 },
 "m20": {
  "claims": [
   "C67"
  ],
  "tightened": [
   "C67_split_table"
  ],
  "note": "survived at first (only the termination lemma noticed); C67 was added: a table with a repeated id is rejected. The edit breaks C67_split_table and C67_met"
 },
 "m35": {
  "claims": [
   "C30"
  ]
 },
 "m36": {
  "claims": [
   "C30"
  ]
 },
 "c04": {
  "claims": [
   "C57"
  ],
  "note": "first guess C08: on serialized documents the edited transition is never enabled (that is what C08 says), so C08 stays true; the witness of C57 no longer goes through, as it should"
 },
 "m26": {
  "claims": [
   "C17",
   "C01"
  ],
  "note": "only the Array branch was edited; C18 (maps) unaffected"
 },
 "l04": {
  "tightened": [
   "C48_constructed_and_assigned_partial"
  ],
  "caught": true,
  "note": "C48 spoke only about the wrapper's string constructor; C48_constructed_and_assigned_partial now covers construction and assignment in every history (through C23_construction, which the edit breaks)"
 },
 "y08": {
  "tightened": [
   "C65_data_alternatives"
  ],
  "caught": true,
  "note": "survived at first: C65 was generic in the list of alternatives; C65_data_alternatives now says which types the library's two variants hold"
 },
 "p14": {
  "claims": [
   "C73"
  ],
  "tightened": [
   "C73_accepted_means"
  ],
  "note": "survived when first tried; C73 was tightened and the same edits, repeated as r01/r02, are now rejected by it",
  "caught": true
 },
 "p15": {
  "claims": [
   "C73"
  ],
  "tightened": [
   "C73_accepted_means"
  ],
  "note": "survived when first tried; C73 was tightened and the same edits, repeated as r01/r02, are now rejected by it",
  "caught": true
 },
 "au51": {
  "tightened": [
   "C20_loop",
   "C20_array_keys_throw"
  ],
  "note": "found by a random mutation run; no theorem used it_collect before"
 },
 "p05": {
  "claims": [
   "C16",
   "C14"
  ],
  "note": "first guess also listed C43; that property is about Serialize, which the edit does not touch"
 },
 "p18": {
  "claims": [
   "C14"
  ],
  "note": "first guess also listed C11; that property is about Serialize, which the edit does not touch"
 },
 "a02": {
  "claims": [
   "C40"
  ],
  "note": "first guess also listed C38; that property is about Parse, which the edit does not touch"
 },
 "zc10": {
  "claims": [
   "C65"
  ],
  "note": "first guess also listed C87; the type traits already reject every type outside the list, so what compiles stays the same"
 },
 "zy08": {
  "note": "C111 allows a creating call to throw when its pool cannot grow, it does not demand it (whether the vector of blocks must grow is not visible to a user), so of the failures only C111_met is about the changed behaviour; the theorems fail because their proof follows the branch that is gone."
 }
}