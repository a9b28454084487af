-Q theories Verif
theories/Model/Base.v
theories/Model/Text.v
theories/Model/Float.v
theories/Model/Num.v
theories/Model/RustNum.v
theories/Model/Point.v
theories/Model/Contour.v
theories/Model/Reverse.v
theories/Model/Refigure.v
theories/Model/Create.v
theories/Model/Conv.v
theories/Model/Strings.v
theories/Model/Names.v
theories/Model/Pedantry.v
theories/Model/Color.v
theories/Model/Xml.v
theories/Model/XmlText.v
theories/Model/Parts.v
theories/Model/Read.v
theories/Model/Write.v
theories/Model/Component.v
theories/Model/Penops.v
theories/Model/Kurbo.v
theories/Model/Image.v
theories/Model/Mpoint.v
theories/Model/Mfek.v
theories/Model/Skia.v
theories/Spec/TextSpec.v
theories/Spec/NumSpec.v
theories/Spec/ContourSpec.v
theories/Spec/PathSpec.v
theories/Facts/NamesFacts.v
theories/Facts/StringsFacts.v
theories/Facts/TextFacts.v
theories/Facts/PathFacts.v
theories/Facts/FloatFacts.v
theories/Facts/RustNumFacts.v
theories/Facts/ColorFacts.v
theories/Props/PropsStrings.v
theories/Facts/PointFacts.v
theories/Facts/ContourFacts.v
theories/Facts/RefigureFacts.v
theories/Props/PropsContour.v
theories/Spec/OutlineSpec.v
theories/Spec/GlyphSpec.v
theories/Facts/CreateFacts.v
theories/Facts/ConvFacts.v
theories/Facts/XmlFacts.v
theories/Facts/GlyphFacts.v
theories/Props/PropsOutline.v
theories/Props/PropsGlyph.v
theories/Spec/ComponentSpec.v
theories/Facts/ExactFacts.v
theories/Facts/OrderFacts.v
theories/Facts/MatrixFacts.v
theories/Facts/ComponentFacts.v
theories/Props/PropsComponent.v
theories/Facts/PenFacts.v
theories/Facts/KurboFacts.v
theories/Props/PropsKurbo.v
theories/Spec/ImageSpec.v
theories/Facts/ImageFacts.v
theories/Props/PropsImage.v
theories/Spec/MfekSpec.v
theories/Spec/SkiaSpec.v
theories/Facts/MfekFacts.v
theories/Facts/ValueFacts.v
theories/Facts/SkiaFacts.v
theories/Props/PropsMfek.v
theories/Props/PropsSkia.v
theories/Model/Interop.v
theories/Model/Builders.v
theories/Model/Serde.v
theories/Model/Message.v
theories/Model/Equal.v
theories/Model/EqualMfek.v
theories/Model/Hash.v
theories/Facts/RoundFacts.v
theories/Spec/InteropSpec.v
theories/Spec/DocumentSpec.v
theories/Spec/BuildersSpec.v
theories/Facts/InteropFacts.v
theories/Facts/DocumentFacts.v
theories/Facts/WrittenFacts.v
theories/Facts/BuildersFacts.v
theories/Facts/ErrorFacts.v
theories/Spec/AccuracySpec.v
theories/Facts/AccuracyFacts.v
theories/Facts/NestFacts.v
theories/Facts/MoreFacts.v
theories/Spec/EditSpec.v
theories/Spec/FailureSpec.v
theories/Spec/SerdeSpec.v
theories/Spec/RoundSpec.v
theories/Spec/TightSpec.v
theories/Facts/EditFacts.v
theories/Facts/DigitFacts.v
theories/Facts/FailureFacts.v
theories/Facts/SerdeFacts.v
theories/Facts/SerdeExactFacts.v
theories/Facts/SerdeReadFacts.v
theories/Facts/SerdeEnumFacts.v
theories/Facts/CorrectFacts.v
theories/Facts/DecimalFacts.v
theories/Facts/ArithFacts.v
theories/Spec/OpenSpec.v
theories/Spec/FontSpec.v
theories/Spec/SavedSpec.v
theories/Spec/MessageSpec.v
theories/Spec/EqualSpec.v
theories/Spec/EqualMfekSpec.v
theories/Spec/SerdeMfekSpec.v
theories/Spec/HashSpec.v
theories/Facts/EqualFacts.v
theories/Facts/EqualMfekFacts.v
theories/Facts/SerdeMfekFacts.v
theories/Facts/HashFacts.v
theories/Facts/OpenFacts.v
theories/Facts/SavedFacts.v
theories/Facts/MessageFacts.v
theories/Props/PropsInterop.v
theories/Props/PropsDocument.v
theories/Props/PropsBuilders.v
theories/Props/PropsAccuracy.v
theories/Props/PropsPen.v
theories/Props/PropsEdit.v
theories/Props/PropsTight.v
theories/Props/PropsFailure.v
theories/Props/PropsSerde.v
theories/Props/PropsRound.v
theories/Props/PropsOpen.v
theories/Props/PropsFont.v
theories/Props/PropsSaved.v
theories/Props/PropsMessage.v
theories/Props/PropsEqual.v
theories/Props/PropsEqualMfek.v
theories/Props/PropsSerdeMfek.v
theories/Props/PropsHash.v
theories/Props/RepoTests.v
theories/Spec/AgreeSpec.v
theories/Spec/XmlTextSpec.v
theories/Spec/GrammarSpec.v
theories/Facts/AgreeFacts.v
theories/Facts/XmlTextFacts.v
theories/Facts/XmlGlyphFacts.v
theories/Facts/GrammarFacts.v
theories/Props/PropsAgree.v
theories/Props/PropsXml.v
theories/Props/PropsSpelling.v
theories/Model/Plist.v
theories/Spec/PlistSpec.v
theories/Facts/PlistFacts.v
theories/Props/PropsPlist.v
theories/Model/Utf8.v
theories/Spec/BytesSpec.v
theories/Facts/BytesFacts.v
theories/Props/PropsBytes.v
theories/Spec/AgainSpec.v
theories/Facts/AgainFacts.v
theories/Props/PropsAgain.v
theories/Model/Cost.v
theories/Spec/CostSpec.v
theories/Facts/CostFacts.v
theories/Props/PropsCost.v
theories/Model/Features.v
theories/Spec/FeatureSpec.v
theories/Facts/FeatureFacts.v
theories/Props/PropsFeature.v
theories/Spec/ProfileSpec.v
theories/Spec/DrawnSpec.v
theories/Facts/ProfileFacts.v
theories/Facts/DrawnFacts.v
theories/Props/PropsProfile.v
theories/Props/PropsDrawn.v
theories/Spec/LoadSpec.v
theories/Props/PropsLoad.v
theories/Spec/FileSpec.v
theories/Facts/FileFacts.v
theories/Props/PropsFile.v
theories/Spec/SessionSpec.v
theories/Spec/ZeroSpec.v
theories/Facts/SessionFacts.v
theories/Spec/RestSpec.v
theories/Facts/ZeroFacts.v
theories/Props/PropsSession.v
theories/Props/PropsZero.v
theories/Props/PropsZeroFile.v
theories/Facts/RestFacts.v
theories/Props/PropsRest.v
theories/Spec/FlatSpec.v
theories/Facts/FlatFacts.v
theories/Props/PropsFlat.v
theories/Props/PropsFlatFile.v
theories/Props/PropsRestFile.v
theories/Spec/ReopenSpec.v
theories/Facts/ReopenFacts.v
theories/Facts/ReopenFileFacts.v
theories/Props/PropsReopen.v
theories/Props/PropsReopenFile.v
theories/Spec/ThroughSpec.v
theories/Props/PropsThrough.v
