-Q theories Verif
theories/Examples/Build.v
theories/Examples/Codec.v
theories/Examples/Engine.v
theories/Examples/GoHeap.v
theories/Examples/GoTests.v
theories/Examples/GroupData.v
theories/Examples/Iban.v
theories/Examples/Keywords.v
theories/Examples/LongResponse.v
theories/Examples/Metrics.v
theories/Examples/Native.v
theories/Examples/OtherTests.v
theories/Examples/RegexEngine.v
theories/Examples/RegexTests.v
theories/Examples/ScannerTests.v
theories/Examples/Setting.v
theories/Examples/Store.v
theories/Examples/UnitTests.v
theories/Examples/Validation.v
theories/Model/Ascii.v
theories/Model/Ast.v
theories/Model/AwsRequest.v
theories/Model/Base.v
theories/Model/Binary.v
theories/Model/Builder.v
theories/Model/Calls.v
theories/Model/Checksums.v
theories/Model/Config.v
theories/Model/Debug.v
theories/Model/Encoding.v
theories/Model/Event.v
theories/Model/Fuzz.v
theories/Model/GoBinding.v
theories/Model/GoHeap.v
theories/Model/GroupData.v
theories/Model/Hash.v
theories/Model/Iban.v
theories/Model/JsonText.v
theories/Model/Jwt.v
theories/Model/Keywords.v
theories/Model/MapEvents.v
theories/Model/MatchAction.v
theories/Model/MatchStatus.v
theories/Model/MatchValidation.v
theories/Model/Messages.v
theories/Model/Metrics.v
theories/Model/Native.v
theories/Model/Path.v
theories/Model/RegexAdapter.v
theories/Model/RegexFactories.v
theories/Model/RegexParser.v
theories/Model/RegexRule.v
theories/Model/RegexStore.v
theories/Model/RegexSyntax.v
theories/Model/Scanner.v
theories/Model/ScopedRuleset.v
theories/Model/Sized.v
theories/Model/Stats.v
theories/Model/Str.v
theories/Model/TrustedBinary.v
theories/Model/Utf8.v
theories/Model/Validation.v
theories/Proofs/Apply.v
theories/Proofs/AsWrittenClaims.v
theories/Proofs/AwsRequest.v
theories/Proofs/AwsRequestClaims.v
theories/Proofs/Binary.v
theories/Proofs/BuildClaims.v
theories/Proofs/BuilderLemmas.v
theories/Proofs/Calls.v
theories/Proofs/CallsClaims.v
theories/Proofs/ChecksumsClaims.v
theories/Proofs/Claims.v
theories/Proofs/Codec.v
theories/Proofs/CodecClaims.v
theories/Proofs/ConfigLemmas.v
theories/Proofs/ConversionClaims.v
theories/Proofs/DebugClaims.v
theories/Proofs/EndToEndClaims.v
theories/Proofs/Events.v
theories/Proofs/Expression.v
theories/Proofs/Fuzz.v
theories/Proofs/FuzzClaims.v
theories/Proofs/GoHeap.v
theories/Proofs/GoHeapClaims.v
theories/Proofs/GoScan.v
theories/Proofs/GoToGoClaims.v
theories/Proofs/Grammar.v
theories/Proofs/GroupData.v
theories/Proofs/GroupDataClaims.v
theories/Proofs/Hash.v
theories/Proofs/HashClaims.v
theories/Proofs/Iban.v
theories/Proofs/IbanClaims.v
theories/Proofs/Json.v
theories/Proofs/JsonRules.v
theories/Proofs/JsonRulesClaims.v
theories/Proofs/JsonScalarsClaims.v
theories/Proofs/JsonText.v
theories/Proofs/JsonWriting.v
theories/Proofs/Jwt.v
theories/Proofs/JwtClaims.v
theories/Proofs/KeywordSearch.v
theories/Proofs/KeywordTextClaims.v
theories/Proofs/KeywordsClaims.v
theories/Proofs/Lossy.v
theories/Proofs/MapEventsClaims.v
theories/Proofs/MatchStatus.v
theories/Proofs/MatchValidation.v
theories/Proofs/MatchValidationClaims.v
theories/Proofs/Meaning.v
theories/Proofs/MessagesClaims.v
theories/Proofs/Metrics.v
theories/Proofs/MetricsClaims.v
theories/Proofs/Native.v
theories/Proofs/NativeClaims.v
theories/Proofs/Overlap.v
theories/Proofs/Panics.v
theories/Proofs/PanicsClaims.v
theories/Proofs/Parser.v
theories/Proofs/Pattern.v
theories/Proofs/PatternsClaims.v
theories/Proofs/Reading.v
theories/Proofs/ReadingClaims.v
theories/Proofs/ReadingClasses.v
theories/Proofs/ReadingLeaves.v
theories/Proofs/ReadingLiterals.v
theories/Proofs/RedactionClaims.v
theories/Proofs/Regex.v
theories/Proofs/RegexCaches.v
theories/Proofs/RegexProvenance.v
theories/Proofs/RegexScan.v
theories/Proofs/RegexStore.v
theories/Proofs/RegexStoreClaims.v
theories/Proofs/RegexVersions.v
theories/Proofs/Reread.v
theories/Proofs/RereadBody.v
theories/Proofs/RereadFlags.v
theories/Proofs/Rescan.v
theories/Proofs/RescanClaims.v
theories/Proofs/RuleSets.v
theories/Proofs/RuleSetsClaims.v
theories/Proofs/Scan.v
theories/Proofs/Scopes.v
theories/Proofs/ScopesClaims.v
theories/Proofs/Search.v
theories/Proofs/SearchClaims.v
theories/Proofs/SizedClaims.v
theories/Proofs/StatsLemmas.v
theories/Proofs/Text.v
theories/Proofs/TruePos.v
theories/Proofs/TrustedBinary.v
theories/Proofs/TrustedBinaryClaims.v
theories/Proofs/TypingClaims.v
theories/Proofs/ValidateMatches.v
theories/Proofs/Visitor.v
theories/Spec/AsWritten.v
theories/Spec/AwsRequest.v
theories/Spec/Builder.v
theories/Spec/Calls.v
theories/Spec/Checks.v
theories/Spec/Checksums.v
theories/Spec/Claims.v
theories/Spec/Codec.v
theories/Spec/Debug.v
theories/Spec/EndToEnd.v
theories/Spec/Events.v
theories/Spec/Fuzz.v
theories/Spec/GoHeap.v
theories/Spec/GoToGo.v
theories/Spec/GroupData.v
theories/Spec/Hash.v
theories/Spec/Iban.v
theories/Spec/Json.v
theories/Spec/JsonRule.v
theories/Spec/JsonScalars.v
theories/Spec/JsonText.v
theories/Spec/Jwt.v
theories/Spec/KeywordConfig.v
theories/Spec/KeywordPattern.v
theories/Spec/MatchValidation.v
theories/Spec/Messages.v
theories/Spec/Metrics.v
theories/Spec/Native.v
theories/Spec/Overlap.v
theories/Spec/Panics.v
theories/Spec/Pattern.v
theories/Spec/Reading.v
theories/Spec/Redaction.v
theories/Spec/Regex.v
theories/Spec/RegexMeaning.v
theories/Spec/RegexScan.v
theories/Spec/RegexStore.v
theories/Spec/Rescan.v
theories/Spec/RuleSets.v
theories/Spec/Rules.v
theories/Spec/Scan.v
theories/Spec/Scopes.v
theories/Spec/Search.v
theories/Spec/Sized.v
theories/Spec/Sorting.v
theories/Spec/Stats.v
theories/Spec/Text.v
theories/Spec/TrustedBinary.v
theories/Spec/Wire.v
theories/Thm/AsWritten.v
theories/Thm/AwsRequest.v
theories/Thm/Build.v
theories/Thm/Calls.v
theories/Thm/Checksums.v
theories/Thm/Codec.v
theories/Thm/Conversion.v
theories/Thm/Debug.v
theories/Thm/EndToEnd.v
theories/Thm/Fuzz.v
theories/Thm/GoHeap.v
theories/Thm/GoToGo.v
theories/Thm/GroupData.v
theories/Thm/Hash.v
theories/Thm/Iban.v
theories/Thm/JsonRules.v
theories/Thm/JsonScalars.v
theories/Thm/Jwt.v
theories/Thm/KeywordText.v
theories/Thm/Keywords.v
theories/Thm/MapEvents.v
theories/Thm/MatchValidation.v
theories/Thm/Messages.v
theories/Thm/Metrics.v
theories/Thm/Native.v
theories/Thm/Panics.v
theories/Thm/Patterns.v
theories/Thm/Reading.v
theories/Thm/Redaction.v
theories/Thm/RegexStore.v
theories/Thm/Rescan.v
theories/Thm/RuleSets.v
theories/Thm/Scopes.v
theories/Thm/Search.v
theories/Thm/Sized.v
theories/Thm/TrustedBinary.v
theories/Thm/Typing.v
